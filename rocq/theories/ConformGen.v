(** Generated by tools/genconform.py from the tests of /repo: the model gives the
    results the tests of the code expect. mtex/symbols/symbols_gen.go (written by gen-symbols.go) *)
From Coq Require Import ZArith String Ascii List Bool.
From Verif Require Import Utf8 GenSyms PropGen.
Import ListNotations.
Local Open Scope string_scope.
Local Open Scope list_scope.

(** The lines of symbols_gen.go; a leading ~ stands for a tab. *)
Fixpoint tabs (s : string) : string :=
  match s with String "~" s' => String (ascii_of_nat 9) (tabs s') | _ => s end.
Definition symbols_gen_go : list string := map tabs [
  "// Autogenerated. DO NOT EDIT.";
  "";
  "package symbols";
  "";
  "var (";
  "~AmbiDelim = NewSet(";
  "~~""\\downarrow"",";
  "~~""\\Uparrow"",";
  "~~""\\|"",";
  "~~""\\updownarrow"",";
  "~~""\\vert"",";
  "~~""\\Vert"",";
  "~~""\\backslash"",";
  "~~""."",";
  "~~""\\Updownarrow"",";
  "~~""/"",";
  "~~""\\Downarrow"",";
  "~~""|"",";
  "~~""\\\\|"",";
  "~~""\\uparrow"",";
  "~)";
  "";
  "~ArrowSymbols = NewSet(";
  "~~""\\Uparrow"",";
  "~~""\\searrow"",";
  "~~""\\hookleftarrow"",";
  "~~""\\longleftrightarrow"",";
  "~~""\\longrightarrow"",";
  "~~""\\rightarrow"",";
  "~~""\\leadsto"",";
  "~~""\\nearrow"",";
  "~~""\\Updownarrow"",";
  "~~""\\rightharpoonup"",";
  "~~""\\Longrightarrow"",";
  "~~""\\leftrightarrow"",";
  "~~""\\downarrow"",";
  "~~""\\nwarrow"",";
  "~~""\\leftarrow"",";
  "~~""\\leftharpoondown"",";
  "~~""\\swarrow"",";
  "~~""\\Longleftarrow"",";
  "~~""\\Leftarrow"",";
  "~~""\\Longleftrightarrow"",";
  "~~""\\uparrow"",";
  "~~""\\hookrightarrow"",";
  "~~""\\rightleftharpoons"",";
  "~~""\\mapsto"",";
  "~~""\\Leftrightarrow"",";
  "~~""\\leftharpoonup"",";
  "~~""\\rightharpoondown"",";
  "~~""\\updownarrow"",";
  "~~""\\Rightarrow"",";
  "~~""\\longleftarrow"",";
  "~~""\\Downarrow"",";
  "~~""\\longmapsto"",";
  "~)";
  "";
  "~BinaryOperators = NewSet(";
  "~~""\\triangleleft"",";
  "~~""\\cup"",";
  "~~""+"",";
  "~~""\\oplus"",";
  "~~""*"",";
  "~~""\\bullet"",";
  "~~""\\star"",";
  "~~""\\diamond"",";
  "~~""\\div"",";
  "~~""\\bigtriangledown"",";
  "~~""\\unrhd"",";
  "~~""\\wr"",";
  "~~""\\bigtriangleup"",";
  "~~""\\sqcup"",";
  "~~""\\vee"",";
  "~~""\\sqcap"",";
  "~~""\\dagger"",";
  "~~""\\cdot"",";
  "~~""\\unlhd"",";
  "~~""\\triangleright"",";
  "~~""\\ddagger"",";
  "~~""\\amalg"",";
  "~~""\\circ"",";
  "~~""\\odot"",";
  "~~""\\cap"",";
  "~~""\\bigcirc"",";
  "~~""\\lhd"",";
  "~~""\\times"",";
  "~~""-"",";
  "~~""\\wedge"",";
  "~~""\\mp"",";
  "~~""\\otimes"",";
  "~~""\\ominus"",";
  "~~""\\ast"",";
  "~~""\\pm"",";
  "~~""\\oslash"",";
  "~~""\\rhd"",";
  "~~""\\setminus"",";
  "~~""\\uplus"",";
  "~)";
  "";
  "~DropSubSymbols = NewSet(";
  "~~""\\oint"",";
  "~~""\\int"",";
  "~)";
  "";
  "~FontNames = NewSet(";
  "~~""circled"",";
  "~~""default"",";
  "~~""cal"",";
  "~~""bf"",";
  "~~""regular"",";
  "~~""tt"",";
  "~~""scr"",";
  "~~""sf"",";
  "~~""frak"",";
  "~~""rm"",";
  "~~""it"",";
  "~~""bb"",";
  "~)";
  "";
  "~FunctionNames = NewSet(";
  "~~""lim"",";
  "~~""arccos"",";
  "~~""min"",";
  "~~""arcsin"",";
  "~~""gcd"",";
  "~~""arctan"",";
  "~~""sup"",";
  "~~""sec"",";
  "~~""max"",";
  "~~""cos"",";
  "~~""deg"",";
  "~~""arg"",";
  "~~""sin"",";
  "~~""log"",";
  "~~""sinh"",";
  "~~""ker"",";
  "~~""liminf"",";
  "~~""coth"",";
  "~~""exp"",";
  "~~""det"",";
  "~~""ln"",";
  "~~""lg"",";
  "~~""Pr"",";
  "~~""tan"",";
  "~~""tanh"",";
  "~~""csc"",";
  "~~""hom"",";
  "~~""cosh"",";
  "~~""cot"",";
  "~~""dim"",";
  "~~""limsup"",";
  "~~""inf"",";
  "~)";
  "";
  "~LeftDelim = NewSet(";
  "~~""\\lfloor"",";
  "~~""<"",";
  "~~""\\{"",";
  "~~""\\langle"",";
  "~~""["",";
  "~~""("",";
  "~~""\\lceil"",";
  "~)";
  "";
  "~OverUnderFunctions = NewSet(";
  "~~""sup"",";
  "~~""max"",";
  "~~""lim"",";
  "~~""limsup"",";
  "~~""min"",";
  "~~""liminf"",";
  "~)";
  "";
  "~OverUnderSymbols = NewSet(";
  "~~""\\biguplus"",";
  "~~""\\bigoplus"",";
  "~~""\\prod"",";
  "~~""\\bigcap"",";
  "~~""\\bigsqcup"",";
  "~~""\\bigodot"",";
  "~~""\\bigvee"",";
  "~~""\\bigwedge"",";
  "~~""\\sum"",";
  "~~""\\bigcup"",";
  "~~""\\coprod"",";
  "~~""\\bigotimes"",";
  "~)";
  "";
  "~PunctuationSymbols = NewSet(";
  "~~""!"",";
  "~~"";"",";
  "~~""\\cdotp"",";
  "~~"","",";
  "~~""."",";
  "~~""\\ldotp"",";
  "~)";
  "";
  "~RelationSymbols = NewSet(";
  "~~""\\ni"",";
  "~~""\\leq"",";
  "~~""\\ll"",";
  "~~""\\supseteq"",";
  "~~""\\succ"",";
  "~~""="",";
  "~~""\\neq"",";
  "~~""\\parallel"",";
  "~~""\\geq"",";
  "~~""\\prec"",";
  "~~""\\frown"",";
  "~~""\\in"",";
  "~~""\\Join"",";
  "~~""\\sqsubset"",";
  "~~""\\dashv"",";
  "~~""\\vdash"",";
  "~~""\\dots"",";
  "~~""\\asymp"",";
  "~~""\\subset"",";
  "~~""\\subseteq"",";
  "~~""\\sqsupseteq"",";
  "~~""<"",";
  "~~""\\models"",";
  "~~""\\bowtie"",";
  "~~""\\equiv"",";
  "~~"":"",";
  "~~""\\sqsupset"",";
  "~~""\\smile"",";
  "~~""\\propto"",";
  "~~""\\dotplus"",";
  "~~""\\preceq"",";
  "~~""\\cong"",";
  "~~""\\simeq"",";
  "~~"">"",";
  "~~""\\mid"",";
  "~~""\\approx"",";
  "~~""\\supset"",";
  "~~""\\gg"",";
  "~~""\\doteq"",";
  "~~""\\sqsubseteq"",";
  "~~""\\doteqdot"",";
  "~~""\\succeq"",";
  "~~""\\perp"",";
  "~~""\\sim"",";
  "~)";
  "";
  "~RightDelim = NewSet(";
  "~~""\\rceil"",";
  "~~""]"",";
  "~~""\\rangle"",";
  "~~"">"",";
  "~~""\\}"",";
  "~~""\\rfloor"",";
  "~~"")"",";
  "~)";
  ")";
  ""].
Example symbols_gen_text : lines (file_text (map fst tables) tables) = symbols_gen_go.
Proof. vm_compute. reflexivity. Qed.
