(* GENERATED by tools/gentables.py from the Go literal tables; do not edit. *)
From Coq Require Import ZArith String List.
Import ListNotations.
Local Open Scope string_scope.
Local Open Scope Z_scope.

(* mtex/symbols/symbols_gen.go:6-21 *)
Definition AmbiDelim_list : list string := [
  "\downarrow";
  "\Uparrow";
  "\|";
  "\updownarrow";
  "\vert";
  "\Vert";
  "\backslash";
  ".";
  "\Updownarrow";
  "/";
  "\Downarrow";
  "|";
  "\\|";
  "\uparrow"
].

(* mtex/symbols/symbols_gen.go:23-56 *)
Definition ArrowSymbols_list : list string := [
  "\Uparrow";
  "\searrow";
  "\hookleftarrow";
  "\longleftrightarrow";
  "\longrightarrow";
  "\rightarrow";
  "\leadsto";
  "\nearrow";
  "\Updownarrow";
  "\rightharpoonup";
  "\Longrightarrow";
  "\leftrightarrow";
  "\downarrow";
  "\nwarrow";
  "\leftarrow";
  "\leftharpoondown";
  "\swarrow";
  "\Longleftarrow";
  "\Leftarrow";
  "\Longleftrightarrow";
  "\uparrow";
  "\hookrightarrow";
  "\rightleftharpoons";
  "\mapsto";
  "\Leftrightarrow";
  "\leftharpoonup";
  "\rightharpoondown";
  "\updownarrow";
  "\Rightarrow";
  "\longleftarrow";
  "\Downarrow";
  "\longmapsto"
].

(* mtex/symbols/symbols_gen.go:58-98 *)
Definition BinaryOperators_list : list string := [
  "\triangleleft";
  "\cup";
  "+";
  "\oplus";
  "*";
  "\bullet";
  "\star";
  "\diamond";
  "\div";
  "\bigtriangledown";
  "\unrhd";
  "\wr";
  "\bigtriangleup";
  "\sqcup";
  "\vee";
  "\sqcap";
  "\dagger";
  "\cdot";
  "\unlhd";
  "\triangleright";
  "\ddagger";
  "\amalg";
  "\circ";
  "\odot";
  "\cap";
  "\bigcirc";
  "\lhd";
  "\times";
  "-";
  "\wedge";
  "\mp";
  "\otimes";
  "\ominus";
  "\ast";
  "\pm";
  "\oslash";
  "\rhd";
  "\setminus";
  "\uplus"
].

(* mtex/symbols/symbols_gen.go:100-103 *)
Definition DropSubSymbols_list : list string := [
  "\oint";
  "\int"
].

(* mtex/symbols/symbols_gen.go:105-118 *)
Definition FontNames_list : list string := [
  "circled";
  "default";
  "cal";
  "bf";
  "regular";
  "tt";
  "scr";
  "sf";
  "frak";
  "rm";
  "it";
  "bb"
].

(* mtex/symbols/symbols_gen.go:120-153 *)
Definition FunctionNames_list : list string := [
  "lim";
  "arccos";
  "min";
  "arcsin";
  "gcd";
  "arctan";
  "sup";
  "sec";
  "max";
  "cos";
  "deg";
  "arg";
  "sin";
  "log";
  "sinh";
  "ker";
  "liminf";
  "coth";
  "exp";
  "det";
  "ln";
  "lg";
  "Pr";
  "tan";
  "tanh";
  "csc";
  "hom";
  "cosh";
  "cot";
  "dim";
  "limsup";
  "inf"
].

(* mtex/symbols/symbols_gen.go:155-163 *)
Definition LeftDelim_list : list string := [
  "\lfloor";
  "<";
  "\{";
  "\langle";
  "[";
  "(";
  "\lceil"
].

(* mtex/symbols/symbols_gen.go:165-172 *)
Definition OverUnderFunctions_list : list string := [
  "sup";
  "max";
  "lim";
  "limsup";
  "min";
  "liminf"
].

(* mtex/symbols/symbols_gen.go:174-187 *)
Definition OverUnderSymbols_list : list string := [
  "\biguplus";
  "\bigoplus";
  "\prod";
  "\bigcap";
  "\bigsqcup";
  "\bigodot";
  "\bigvee";
  "\bigwedge";
  "\sum";
  "\bigcup";
  "\coprod";
  "\bigotimes"
].

(* mtex/symbols/symbols_gen.go:189-196 *)
Definition PunctuationSymbols_list : list string := [
  "!";
  ";";
  "\cdotp";
  ",";
  ".";
  "\ldotp"
].

(* mtex/symbols/symbols_gen.go:198-243 *)
Definition RelationSymbols_list : list string := [
  "\ni";
  "\leq";
  "\ll";
  "\supseteq";
  "\succ";
  "=";
  "\neq";
  "\parallel";
  "\geq";
  "\prec";
  "\frown";
  "\in";
  "\Join";
  "\sqsubset";
  "\dashv";
  "\vdash";
  "\dots";
  "\asymp";
  "\subset";
  "\subseteq";
  "\sqsupseteq";
  "<";
  "\models";
  "\bowtie";
  "\equiv";
  ":";
  "\sqsupset";
  "\smile";
  "\propto";
  "\dotplus";
  "\preceq";
  "\cong";
  "\simeq";
  ">";
  "\mid";
  "\approx";
  "\supset";
  "\gg";
  "\doteq";
  "\sqsubseteq";
  "\doteqdot";
  "\succeq";
  "\perp";
  "\sim"
].

(* mtex/symbols/symbols_gen.go:245-253 *)
Definition RightDelim_list : list string := [
  "\rceil";
  "]";
  "\rangle";
  ">";
  "\}";
  "\rfloor";
  ")"
].

