(** Generated by tools/genconform.py from the tests of /repo: the model gives the
    results the tests of the code expect. parser_test.go, ast/ast_test.go, ast/walk_test.go *)
From Coq Require Import ZArith String Ascii List Bool.
From Verif Require Import Utf8 Token Ast Parser Quote.
Import ListNotations.
Local Open Scope string_scope.
Local Open Scope list_scope.
Local Open Scope Z_scope.

(** No letters above U+007F occur. *)
Definition parsed (x : string) : option node := match parse_expr (fun _ => false) x with Ok l => Some (NList l) | _ => None end.
Definition printed (n : option node) : option string := match n with Some n => print go_quote n | None => None end.

(** parser_test.go TestParser, case 0 *)
Example parser_0 : printed (parsed "hello") =
  printed (Some (NList [NWord 0 "hello"])).
Proof. vm_compute. reflexivity. Qed.

(** parser_test.go TestParser, case 1 *)
Example parser_1 : printed (parsed "hello world") =
  printed (Some (NList [NWord 0 "hello"; NSym 0 " "; NWord 0 "world"])).
Proof. vm_compute. reflexivity. Qed.

(** parser_test.go TestParser, case 2 *)
Example parser_2 : printed (parsed "empty equation $$") =
  printed (Some (NList [NWord 0 "empty"; NSym 0 " "; NWord 0 "equation"; NSym 0 " "; NMath "$" 0 [] 0])).
Proof. vm_compute. reflexivity. Qed.

(** parser_test.go TestParser, case 3 *)
Example parser_3 : printed (parsed "$+10x$") =
  printed (Some (NList [NMath "$" 0 [NSym 0 "+"; NLit 0 "10"; NWord 0 "x"] 0])).
Proof. vm_compute. reflexivity. Qed.

(** parser_test.go TestParser, case 4 *)
Example parser_4 : printed (parsed "${}+10x$") =
  printed (Some (NList [NMath "$" 0 [NList []; NSym 0 "+"; NLit 0 "10"; NWord 0 "x"] 0])).
Proof. vm_compute. reflexivity. Qed.

(** parser_test.go TestParser, case 5 *)
Example parser_5 : printed (parsed "$\cos$") =
  printed (Some (NList [NMath "$" 0 [NMacro (Some (0, "\cos")) []] 0])).
Proof. vm_compute. reflexivity. Qed.

(** parser_test.go TestParser, case 6 *)
Example parser_6 : printed (parsed "$\sqrt{2x\pi}$") =
  printed (Some (NList [NMath "$" 0 [NMacro (Some (0, "\sqrt")) [NArg 0 [NLit 0 "2"; NWord 0 "x"; NMacro (Some (0, "\pi")) []] 0]] 0])).
Proof. vm_compute. reflexivity. Qed.

(** parser_test.go TestParser, case 7 *)
Example parser_7 : printed (parsed "$\sqrt[3]{2x\pi}$") =
  printed (Some (NList [NMath "$" 0 [NMacro (Some (0, "\sqrt")) [NOptArg 0 [NLit 0 "3"] 0; NArg 0 [NLit 0 "2"; NWord 0 "x"; NMacro (Some (0, "\pi")) []] 0]] 0])).
Proof. vm_compute. reflexivity. Qed.

(** parser_test.go TestParser, case 8 *)
Example parser_8 : printed (parsed "$\sqrt[n]{2x\pi}$") =
  printed (Some (NList [NMath "$" 0 [NMacro (Some (0, "\sqrt")) [NOptArg 0 [NWord 0 "n"] 0; NArg 0 [NLit 0 "2"; NWord 0 "x"; NMacro (Some (0, "\pi")) []] 0]] 0])).
Proof. vm_compute. reflexivity. Qed.

(** parser_test.go TestParser, case 9 *)
Example parser_9 : printed (parsed "$\exp{2x\pi}$") =
  printed (Some (NList [NMath "$" 0 [NMacro (Some (0, "\exp")) [NArg 0 [NLit 0 "2"; NWord 0 "x"; NMacro (Some (0, "\pi")) []] 0]] 0])).
Proof. vm_compute. reflexivity. Qed.

(** parser_test.go TestParser, case 10 *)
Example parser_10 : printed (parsed "$e^\pi$") =
  printed (Some (NList [NMath "$" 0 [NWord 0 "e"; NSup 0 (NMacro (Some (0, "\pi")) [])] 0])).
Proof. vm_compute. reflexivity. Qed.

(** parser_test.go TestParser, case 11 *)
Example parser_11 : printed (parsed "$\mathcal{L}$") =
  printed (Some (NList [NMath "$" 0 [NMacro (Some (0, "\mathcal")) [NArg 0 [NWord 0 "L"] 0]] 0])).
Proof. vm_compute. reflexivity. Qed.

(** parser_test.go TestParser, case 12 *)
Example parser_12 : printed (parsed "$\frac{num}{den}$") =
  printed (Some (NList [NMath "$" 0 [NMacro (Some (0, "\frac")) [NArg 0 [NWord 0 "num"] 0; NArg 0 [NWord 0 "den"] 0]] 0])).
Proof. vm_compute. reflexivity. Qed.

(** parser_test.go TestParser, case 13 *)
Example parser_13 : printed (parsed "$\sqrt{\frac{e^{3i\pi}}{2\cos 3\pi}}$") =
  printed (Some (NList [NMath "" 0 [NMacro (Some (0, "\sqrt")) [NArg 0 [NMacro (Some (0, "\frac")) [NArg 0 [NWord 0 "e"; NSup 0 (NList [NLit 0 "3"; NWord 0 "i"; NMacro (Some (0, "\pi")) []])] 0; NArg 0 [NLit 0 "2"; NMacro (Some (0, "\cos")) []; NLit 0 "3"; NMacro (Some (0, "\pi")) []] 0]] 0]] 0])).
Proof. vm_compute. reflexivity. Qed.

(** parser_test.go TestParser, case 14 *)
Example parser_14 : printed (parsed "$\sqrt{\frac{e^{3i\pi}}{2\cos 3\pi}}$ \textbf{APLAS} Dummy -- $\sqrt{s}=13\,$TeV $\mathcal{L}\,=\,3\,ab^{-1}$") =
  printed (Some (NList [NMath "" 0 [NMacro (Some (0, "\sqrt")) [NArg 0 [NMacro (Some (0, "\frac")) [NArg 0 [NWord 0 "e"; NSup 0 (NList [NLit 0 "3"; NWord 0 "i"; NMacro (Some (0, "\pi")) []])] 0; NArg 0 [NLit 0 "2"; NMacro (Some (0, "\cos")) []; NLit 0 "3"; NMacro (Some (0, "\pi")) []] 0]] 0]] 0; NSym 0 " "; NMacro (Some (0, "\textbf")) [NArg 0 [NWord 0 "APLAS"] 0]; NSym 0 " "; NWord 0 "Dummy"; NSym 0 " "; NSym 0 "-"; NSym 0 "-"; NSym 0 " "; NMath "" 0 [NMacro (Some (0, "\sqrt")) [NArg 0 [NWord 0 "s"] 0]; NSym 0 "="; NLit 0 "13"; NMacro (Some (0, "\,")) []] 0; NWord 0 "TeV"; NSym 0 " "; NMath "" 0 [NMacro (Some (0, "\mathcal")) [NArg 0 [NWord 0 "L"] 0]; NMacro (Some (0, "\,")) []; NSym 0 "="; NMacro (Some (0, "\,")) []; NLit 0 "3"; NMacro (Some (0, "\,")) []; NWord 0 "ab"; NSup 0 (NList [NSym 0 "-"; NLit 0 "1"])] 0])).
Proof. vm_compute. reflexivity. Qed.

(** parser_test.go TestParser, case 15 *)
Example parser_15 : printed (parsed "$x_i$") =
  printed (Some (NList [NMath "" 0 [NWord 0 "x"; NSub 0 (NWord 0 "i")] 0])).
Proof. vm_compute. reflexivity. Qed.

(** parser_test.go TestParser, case 16 *)
Example parser_16 : printed (parsed "$x^n$") =
  printed (Some (NList [NMath "" 0 [NWord 0 "x"; NSup 0 (NWord 0 "n")] 0])).
Proof. vm_compute. reflexivity. Qed.

(** parser_test.go TestParser, case 17 *)
Example parser_17 : printed (parsed "$\sum_{i=0}^{n}$") =
  printed (Some (NList [NMath "" 0 [NMacro (Some (0, "\sum")) []; NSub 0 (NList [NWord 0 "i"; NSym 0 "="; NLit 0 "0"]); NSup 0 (NList [NWord 0 "n"])] 0])).
Proof. vm_compute. reflexivity. Qed.

(** parser_test.go TestTokenPos, case 0 *)
Example token_pos_0 : parsed "hello" =
  Some (NList [NWord 0 "hello"]).
Proof. vm_compute. reflexivity. Qed.

(** parser_test.go TestTokenPos, case 1 *)
Example token_pos_1 : parsed "hello world" =
  Some (NList [NWord 0 "hello"; NSym 5 " "; NWord 6 "world"]).
Proof. vm_compute. reflexivity. Qed.

(** parser_test.go TestTokenPos, case 2 *)
Example token_pos_2 : parsed "empty equation $$" =
  Some (NList [NWord 0 "empty"; NSym 5 " "; NWord 6 "equation"; NSym 14 " "; NMath "$" 15 [] 16]).
Proof. vm_compute. reflexivity. Qed.

(** parser_test.go TestTokenPos, case 3 *)
Example token_pos_3 : parsed "$+10x$" =
  Some (NList [NMath "$" 0 [NSym 1 "+"; NLit 2 "10"; NWord 4 "x"] 5]).
Proof. vm_compute. reflexivity. Qed.

(** parser_test.go TestTokenPos, case 4 *)
Example token_pos_4 : parsed "$\sqrt{2x\pi}$" =
  Some (NList [NMath "$" 0 [NMacro (Some (1, "\sqrt")) [NArg 6 [NLit 7 "2"; NWord 8 "x"; NMacro (Some (9, "\pi")) []] 12]] 13]).
Proof. vm_compute. reflexivity. Qed.

(** parser_test.go TestTokenPos, case 5 *)
Example token_pos_5 : parsed "$e^\pi$" =
  Some (NList [NMath "$" 0 [NWord 1 "e"; NSup 2 (NMacro (Some (3, "\pi")) [])] 6]).
Proof. vm_compute. reflexivity. Qed.

(** parser_test.go TestTokenPos, case 6 *)
Example token_pos_6 : parsed "$x_i$" =
  Some (NList [NMath "$" 0 [NWord 1 "x"; NSub 2 (NWord 3 "i")] 4]).
Proof. vm_compute. reflexivity. Qed.

(** ast/ast_test.go TestPrint, case 0 *)
Example print_0 : print go_quote (NNil) = Some "<nil>".
Proof. vm_compute. reflexivity. Qed.

(** ast/ast_test.go TestPrint, case 1 *)
Example print_1 : print go_quote (NMacro (Some (42, "\cos")) []) = Some "ast.Macro{""\\cos""}".
Proof. vm_compute. reflexivity. Qed.
Example print_pos_1 : node_pos (NMacro (Some (42, "\cos")) []) = Some 42.
Proof. reflexivity. Qed.

(** ast/ast_test.go TestPrint, case 2 *)
Example print_2 : print go_quote (NMacro (Some (42, "\sqrt")) [NArg 0 [NWord 0 "x"] 0]) = Some "ast.Macro{""\\sqrt"", Args:{ast.Word{""x""}}}".
Proof. vm_compute. reflexivity. Qed.
Example print_pos_2 : node_pos (NMacro (Some (42, "\sqrt")) [NArg 0 [NWord 0 "x"] 0]) = Some 42.
Proof. reflexivity. Qed.

(** ast/ast_test.go TestPrint, case 3 *)
Example print_3 : print go_quote (NMacro (Some (42, "\sqrt")) [NOptArg 0 [NWord 0 "n"] 0; NArg 0 [NWord 0 "x"] 0]) = Some "ast.Macro{""\\sqrt"", Args:[ast.Word{""n""}], {ast.Word{""x""}}}".
Proof. vm_compute. reflexivity. Qed.
Example print_pos_3 : node_pos (NMacro (Some (42, "\sqrt")) [NOptArg 0 [NWord 0 "n"] 0; NArg 0 [NWord 0 "x"] 0]) = Some 42.
Proof. reflexivity. Qed.

(** ast/ast_test.go TestPrint, case 4 *)
Example print_4 : print go_quote (NWord 0 "hello") = Some "ast.Word{""hello""}".
Proof. vm_compute. reflexivity. Qed.
Example print_pos_4 : node_pos (NWord 0 "hello") = Some 0.
Proof. reflexivity. Qed.

(** ast/ast_test.go TestPrint, case 5 *)
Example print_5 : print go_quote (NSym 0 "$") = Some "ast.Symbol{""$""}".
Proof. vm_compute. reflexivity. Qed.
Example print_pos_5 : node_pos (NSym 0 "$") = Some 0.
Proof. reflexivity. Qed.

(** ast/ast_test.go TestPrint, case 6 *)
Example print_6 : print go_quote (NLit 0 "10") = Some "ast.Lit{""10""}".
Proof. vm_compute. reflexivity. Qed.
Example print_pos_6 : node_pos (NLit 0 "10") = Some 0.
Proof. reflexivity. Qed.

(** ast/ast_test.go TestPrint, case 7 *)
Example print_7 : print go_quote (NSup 0 (NLit 0 "10")) = Some "ast.Sup{ast.Lit{""10""}}".
Proof. vm_compute. reflexivity. Qed.
Example print_pos_7 : node_pos (NSup 0 (NLit 0 "10")) = Some 0.
Proof. reflexivity. Qed.

(** ast/ast_test.go TestPrint, case 8 *)
Example print_8 : print go_quote (NSub 0 (NLit 0 "10")) = Some "ast.Sub{ast.Lit{""10""}}".
Proof. vm_compute. reflexivity. Qed.
Example print_pos_8 : node_pos (NSub 0 (NLit 0 "10")) = Some 0.
Proof. reflexivity. Qed.

(** ast/ast_test.go TestPrint, case 9 *)
Example print_9 : print go_quote (NList [NLit 0 "1"; NLit 0 "2"]) = Some "ast.List{ast.Lit{""1""}, ast.Lit{""2""}}".
Proof. vm_compute. reflexivity. Qed.

(** ast/ast_test.go TestPrint, case 10 *)
Example print_10 : print go_quote (NMath "" 0 [NLit 0 "1"; NWord 0 "x"] 0) = Some "ast.MathExpr{List:ast.Lit{""1""}, ast.Word{""x""}}".
Proof. vm_compute. reflexivity. Qed.
Example print_pos_10 : node_pos (NMath "" 0 [NLit 0 "1"; NWord 0 "x"] 0) = Some 0.
Proof. reflexivity. Qed.

(** ast/ast_test.go TestPrint, case 11 *)
Example print_11 : print go_quote (NIdent 0 "\cos") = Some "ast.Ident{""\\cos""}".
Proof. vm_compute. reflexivity. Qed.
Example print_pos_11 : node_pos (NIdent 0 "\cos") = Some 0.
Proof. reflexivity. Qed.

(** The visitor of walk_test.go:TestWalk writes the type of each node. *)
Definition type_name (n : node) : string :=
  match n with
  | NNil => "<nil>" | NList _ => "ast.List" | NMacro _ _ => "*ast.Macro" | NArg _ _ _ => "*ast.Arg"
  | NOptArg _ _ _ => "*ast.OptArg" | NIdent _ _ => "*ast.Ident" | NMath _ _ _ _ => "*ast.MathExpr"
  | NWord _ _ => "*ast.Word" | NLit _ _ => "*ast.Literal" | NSym _ _ => "*ast.Symbol"
  | NSub _ _ => "*ast.Sub" | NSup _ _ => "*ast.Sup"
  end.
Definition sprinter (v : unit) (n : node) (s : list string) : option (option unit * list string) :=
  Some (Some v, s ++ [type_name n]).
Definition walked (n : node) : option string :=
  option_map (String.concat " ") (walk unit (list string) sprinter tt n []).

(** ast/walk_test.go TestWalk and TestInspect, case 0 *)
Example walk_0 : walked (NList [NWord 0 "hello"; NWord 0 "world"]) = Some "ast.List *ast.Word <nil> *ast.Word <nil> <nil>".
Proof. vm_compute. reflexivity. Qed.

(** ast/walk_test.go TestWalk and TestInspect, case 1 *)
Example walk_1 : walked (NMacro (Some (0, "sqrt")) [NOptArg 0 [NWord 0 "n"] 0; NArg 0 [NLit 0 "2"; NWord 0 "x"] 0]) = Some "*ast.Macro *ast.Ident <nil> *ast.OptArg *ast.Word <nil> <nil> *ast.Arg *ast.Literal <nil> *ast.Word <nil> <nil> <nil>".
Proof. vm_compute. reflexivity. Qed.

(** ast/walk_test.go TestWalk and TestInspect, case 2 *)
Example walk_2 : walked (NMath "$" 0 [NLit 0 "2"; NSym 0 "+"; NWord 0 "x"] 0) = Some "*ast.MathExpr *ast.Literal <nil> *ast.Symbol <nil> *ast.Word <nil> <nil>".
Proof. vm_compute. reflexivity. Qed.

(** ast/walk_test.go TestWalk and TestInspect, case 3 *)
Example walk_3 : walked (NSub 0 (NWord 0 "i")) = Some "*ast.Sub *ast.Word <nil> <nil>".
Proof. vm_compute. reflexivity. Qed.

(** ast/walk_test.go TestWalk and TestInspect, case 4 *)
Example walk_4 : walked (NSup 0 (NLit 0 "2")) = Some "*ast.Sup *ast.Literal <nil> <nil>".
Proof. vm_compute. reflexivity. Qed.
