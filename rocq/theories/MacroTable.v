(* GENERATED by tools/gentables.py from the Go literal tables; do not edit. *)
From Coq Require Import ZArith String List.
Import ListNotations.
Local Open Scope string_scope.
Local Open Scope Z_scope.

(* macros.go:19-327 literal of p.macros; None is the nil entry, Some s is builtinMacro(s) *)
Definition builtin_macros : list (string * option string) := [
  ("\amalg", Some "");
  ("\ast", Some "");
  ("\bigcirc", Some "");
  ("\bigtriangledown", Some "");
  ("\bigtriangleup", Some "");
  ("\bullet", Some "");
  ("\cdot", Some "");
  ("\circ", Some "");
  ("\cap", Some "");
  ("\cup", Some "");
  ("\dagger", Some "");
  ("\ddagger", Some "");
  ("\diamond", Some "");
  ("\div", Some "");
  ("\lhd", Some "");
  ("\mp", Some "");
  ("\odot", Some "");
  ("\ominus", Some "");
  ("\oplus", Some "");
  ("\oslash", Some "");
  ("\otimes", Some "");
  ("\pm", Some "");
  ("\rhd", Some "");
  ("\setminus", Some "");
  ("\sqcap", Some "");
  ("\sqcup", Some "");
  ("\star", Some "");
  ("\times", Some "");
  ("\triangleleft", Some "");
  ("\triangleright", Some "");
  ("\uplus", Some "");
  ("\unlhd", Some "");
  ("\unrhd", Some "");
  ("\vee", Some "");
  ("\wedge", Some "");
  ("\wr", Some "");
  ("\binom", Some "AA");
  ("\dfrac", Some "AA");
  ("\frac", Some "AA");
  ("\stackrel", Some "AA");
  ("\tfrac", Some "AA");
  ("\genfrac", None);
  ("\approx", Some "");
  ("\asymp", Some "");
  ("\bowtie", Some "");
  ("\cong", Some "");
  ("\dashv", Some "");
  ("\doteq", Some "");
  ("\doteqdot", Some "");
  ("\dotplus", Some "");
  ("\dots", Some "");
  ("\equiv", Some "");
  ("\frown", Some "");
  ("\geq", Some "");
  ("\gg", Some "");
  ("\in", Some "");
  ("\leq", Some "");
  ("\ll", Some "");
  ("\mid", Some "");
  ("\models", Some "");
  ("\neq", Some "");
  ("\ni", Some "");
  ("\parallel", Some "");
  ("\perp", Some "");
  ("\prec", Some "");
  ("\preceq", Some "");
  ("\propto", Some "");
  ("\sim", Some "");
  ("\simeq", Some "");
  ("\smile", Some "");
  ("\sqsubset", Some "");
  ("\sqsubseteq", Some "");
  ("\sqsupset", Some "");
  ("\sqsupseteq", Some "");
  ("\subset", Some "");
  ("\subseteq", Some "");
  ("\succ", Some "");
  ("\succeq", Some "");
  ("\supset", Some "");
  ("\supseteq", Some "");
  ("\vdash", Some "");
  ("\Join", Some "");
  ("\downarrow", Some "");
  ("\hookleftarrow", Some "");
  ("\hookrightarrow", Some "");
  ("\leadsto", Some "");
  ("\leftarrow", Some "");
  ("\leftharpoondown", Some "");
  ("\leftharpoonup", Some "");
  ("\leftrightarrow", Some "");
  ("\longleftarrow", Some "");
  ("\longleftrightarrow", Some "");
  ("\longmapsto", Some "");
  ("\longrightarrow", Some "");
  ("\rightarrow", Some "");
  ("\mapsto", Some "");
  ("\nearrow", Some "");
  ("\nwarrow", Some "");
  ("\rightharpoondown", Some "");
  ("\rightharpoonup", Some "");
  ("\rightleftharpoons", Some "");
  ("\searrow", Some "");
  ("\swarrow", Some "");
  ("\uparrow", Some "");
  ("\updownarrow", Some "");
  ("\Downarrow", Some "");
  ("\Leftarrow", Some "");
  ("\Leftrightarrow", Some "");
  ("\Longleftarrow", Some "");
  ("\Longleftrightarrow", Some "");
  ("\Longrightarrow", Some "");
  ("\Rightarrow", Some "");
  ("\Uparrow", Some "");
  ("\Updownarrow", Some "");
  ("\ldotp", Some "");
  ("\cdotp", Some "");
  ("\bigcap", Some "");
  ("\bigcup", Some "");
  ("\bigodot", Some "");
  ("\bigoplus", Some "");
  ("\bigotimes", Some "");
  ("\bigsqcup", Some "");
  ("\biguplus", Some "");
  ("\bigvee", Some "");
  ("\bigwedge", Some "");
  ("\coprod", Some "");
  ("\prod", Some "");
  ("\sum", Some "");
  ("\lim", Some "");
  ("\liminf", Some "");
  ("\limsup", Some "");
  ("\max", Some "");
  ("\min", Some "");
  ("\sup", Some "");
  ("\int", Some "");
  ("\oint", Some "");
  ("\rm", Some "");
  ("\cal", Some "");
  ("\it", Some "");
  ("\tt", Some "");
  ("\sf", Some "");
  ("\bf", Some "");
  ("\default", Some "");
  ("\bb", Some "");
  ("\frak", Some "");
  ("\scr", Some "");
  ("\regular", Some "");
  ("\arccos", Some "");
  ("\arcsin", Some "");
  ("\arctan", Some "");
  ("\arg", Some "");
  ("\cos", Some "");
  ("\cosh", Some "");
  ("\cot", Some "");
  ("\coth", Some "");
  ("\csc", Some "");
  ("\deg", Some "");
  ("\det", Some "");
  ("\dim", Some "");
  ("\exp", Some "A");
  ("\gcd", Some "");
  ("\hom", Some "");
  ("\inf", Some "");
  ("\ker", Some "");
  ("\lg", Some "");
  ("\ln", Some "");
  ("\log", Some "");
  ("\sec", Some "");
  ("\sin", Some "");
  ("\sinh", Some "");
  ("\sqrt", Some "OA");
  ("\tan", Some "");
  ("\tanh", Some "");
  ("\Pr", Some "");
  ("\backslash", Some "");
  ("\vert", Some "");
  ("\Vert", Some "");
  ("\{", Some "");
  ("\(", Some "");
  ("\langle", Some "");
  ("\lceil", Some "");
  ("\lfloor", Some "");
  ("\}", Some "");
  ("\)", Some "");
  ("\rangle", Some "");
  ("\rceil", Some "");
  ("\rfloor", Some "");
  ("\alpha", Some "");
  ("\beta", Some "");
  ("\gamma", Some "");
  ("\delta", Some "");
  ("\iota", Some "");
  ("\epsilon", Some "");
  ("\eta", Some "");
  ("\kappa", Some "");
  ("\lambda", Some "");
  ("\mu", Some "");
  ("\nu", Some "");
  ("\omicron", Some "");
  ("\pi", Some "");
  ("\theta", Some "");
  ("\xi", Some "");
  ("\rho", Some "");
  ("\sigma", Some "");
  ("\tau", Some "");
  ("\upsilon", Some "");
  ("\phi", Some "");
  ("\chi", Some "");
  ("\psi", Some "");
  ("\omega", Some "");
  ("\zeta", Some "");
  ("\Alpha", Some "");
  ("\Beta", Some "");
  ("\Gamma", Some "");
  ("\Delta", Some "");
  ("\Epsilon", Some "");
  ("\Zeta", Some "");
  ("\Eta", Some "");
  ("\Theta", Some "");
  ("\Iota", Some "");
  ("\Kappa", Some "");
  ("\Lambda", Some "");
  ("\Mu", Some "");
  ("\Nu", Some "");
  ("\Xi", Some "");
  ("\Omicron", Some "");
  ("\Pi", Some "");
  ("\Rho", Some "");
  ("\Sigma", Some "");
  ("\Tau", Some "");
  ("\Upsilon", Some "");
  ("\Phi", Some "");
  ("\Chi", Some "");
  ("\Psi", Some "");
  ("\Omega", Some "");
  ("\hbar", Some "");
  ("\nabla", Some "");
  ("\mathbf", Some "A");
  ("\mathit", Some "A");
  ("\mathsf", Some "A");
  ("\mathtt", Some "A");
  ("\mathcal", Some "A");
  ("\mathdefault", Some "A");
  ("\mathbb", Some "A");
  ("\mathfrak", Some "A");
  ("\mathscr", Some "A");
  ("\mathregular", Some "A");
  ("\textbf", Some "A");
  ("\textit", Some "A");
  ("\textsf", Some "A");
  ("\texttt", Some "A");
  ("\textcal", Some "A");
  ("\textdefault", Some "A");
  ("\textbb", Some "A");
  ("\textfrak", Some "A");
  ("\textscr", Some "A");
  ("\textregular", Some "A");
  ("\ ", Some "");
  ("\,", Some "");
  ("\;", Some "");
  ("\!", Some "");
  ("\quad", Some "");
  ("\qquad", Some "");
  ("\:", Some "");
  ("\cdots", Some "");
  ("\ddots", Some "");
  ("\ldots", Some "");
  ("\vdots", Some "");
  ("\hspace", Some "A");
  ("\overline", Some "A");
  ("\operatorname", Some "A")
].
