(* GENERATED by tools/gentables.py from the Go literal tables; do not edit. *)
From Coq Require Import ZArith String List.
Import ListNotations.
Local Open Scope string_scope.
Local Open Scope Z_scope.

(* mtex/macros.go:25-335 the keys of builtinMacros (the handlers stored there are never called) *)
Definition mtex_macros : list string := [
  "\amalg";
  "\ast";
  "\bigcirc";
  "\bigtriangledown";
  "\bigtriangleup";
  "\bullet";
  "\cdot";
  "\circ";
  "\cap";
  "\cup";
  "\dagger";
  "\ddagger";
  "\diamond";
  "\div";
  "\lhd";
  "\mp";
  "\odot";
  "\ominus";
  "\oplus";
  "\oslash";
  "\otimes";
  "\pm";
  "\rhd";
  "\setminus";
  "\sqcap";
  "\sqcup";
  "\star";
  "\times";
  "\triangleleft";
  "\triangleright";
  "\uplus";
  "\unlhd";
  "\unrhd";
  "\vee";
  "\wedge";
  "\wr";
  "\binom";
  "\dfrac";
  "\frac";
  "\stackrel";
  "\tfrac";
  "\genfrac";
  "\approx";
  "\asymp";
  "\bowtie";
  "\cong";
  "\dashv";
  "\doteq";
  "\doteqdot";
  "\dotplus";
  "\dots";
  "\equiv";
  "\frown";
  "\geq";
  "\gg";
  "\in";
  "\leq";
  "\ll";
  "\mid";
  "\models";
  "\neq";
  "\ni";
  "\parallel";
  "\perp";
  "\prec";
  "\preceq";
  "\propto";
  "\sim";
  "\simeq";
  "\smile";
  "\sqsubset";
  "\sqsubseteq";
  "\sqsupset";
  "\sqsupseteq";
  "\subset";
  "\subseteq";
  "\succ";
  "\succeq";
  "\supset";
  "\supseteq";
  "\vdash";
  "\Join";
  "\downarrow";
  "\hookleftarrow";
  "\hookrightarrow";
  "\leadsto";
  "\leftarrow";
  "\leftharpoondown";
  "\leftharpoonup";
  "\leftrightarrow";
  "\longleftarrow";
  "\longleftrightarrow";
  "\longmapsto";
  "\longrightarrow";
  "\rightarrow";
  "\mapsto";
  "\nearrow";
  "\nwarrow";
  "\rightharpoondown";
  "\rightharpoonup";
  "\rightleftharpoons";
  "\searrow";
  "\swarrow";
  "\uparrow";
  "\updownarrow";
  "\Downarrow";
  "\Leftarrow";
  "\Leftrightarrow";
  "\Longleftarrow";
  "\Longleftrightarrow";
  "\Longrightarrow";
  "\Rightarrow";
  "\Uparrow";
  "\Updownarrow";
  "\ldotp";
  "\cdotp";
  "\bigcap";
  "\bigcup";
  "\bigodot";
  "\bigoplus";
  "\bigotimes";
  "\bigsqcup";
  "\biguplus";
  "\bigvee";
  "\bigwedge";
  "\coprod";
  "\prod";
  "\sum";
  "\lim";
  "\liminf";
  "\limsup";
  "\max";
  "\min";
  "\sup";
  "\int";
  "\oint";
  "\rm";
  "\cal";
  "\it";
  "\tt";
  "\sf";
  "\bf";
  "\default";
  "\bb";
  "\frak";
  "\scr";
  "\regular";
  "\arccos";
  "\arcsin";
  "\arctan";
  "\arg";
  "\cos";
  "\cosh";
  "\cot";
  "\coth";
  "\csc";
  "\deg";
  "\det";
  "\dim";
  "\exp";
  "\gcd";
  "\hom";
  "\inf";
  "\ker";
  "\lg";
  "\ln";
  "\log";
  "\sec";
  "\sin";
  "\sinh";
  "\sqrt";
  "\tan";
  "\tanh";
  "\Pr";
  "\backslash";
  "\vert";
  "\Vert";
  "\{";
  "\(";
  "(";
  "\langle";
  "\lceil";
  "\lfloor";
  "\}";
  "\)";
  ")";
  "\rangle";
  "\rceil";
  "\rfloor";
  "\alpha";
  "\beta";
  "\gamma";
  "\delta";
  "\iota";
  "\epsilon";
  "\eta";
  "\kappa";
  "\lambda";
  "\mu";
  "\nu";
  "\omicron";
  "\pi";
  "\theta";
  "\xi";
  "\rho";
  "\sigma";
  "\tau";
  "\upsilon";
  "\phi";
  "\chi";
  "\psi";
  "\omega";
  "\zeta";
  "\Alpha";
  "\Beta";
  "\Gamma";
  "\Delta";
  "\Epsilon";
  "\Zeta";
  "\Eta";
  "\Theta";
  "\Iota";
  "\Kappa";
  "\Lambda";
  "\Mu";
  "\Nu";
  "\Xi";
  "\Omicron";
  "\Pi";
  "\Rho";
  "\Sigma";
  "\Tau";
  "\Upsilon";
  "\Phi";
  "\Chi";
  "\Psi";
  "\Omega";
  "\hbar";
  "\nabla";
  "\mathbf";
  "\mathit";
  "\mathsf";
  "\mathtt";
  "\mathcal";
  "\mathdefault";
  "\mathbb";
  "\mathfrak";
  "\mathscr";
  "\mathregular";
  "\textbf";
  "\textit";
  "\textsf";
  "\texttt";
  "\textcal";
  "\textdefault";
  "\textbb";
  "\textfrak";
  "\textscr";
  "\textregular";
  "\ ";
  "\,";
  "\;";
  "\!";
  "\quad";
  "\qquad";
  "\:";
  "\cdots";
  "\ddots";
  "\ldots";
  "\vdots";
  "\hspace";
  "\overline";
  "\operatorname"
].
