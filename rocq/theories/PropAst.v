(** Properties of package ast: Walk, Inspect, Print. *)
From Coq Require Import ZArith String Ascii List Bool Lia.
From Verif Require Import Utf8 Token Lexer Ast Parser TreeSpec AstSpec AstFacts Quote PropParse.
Import ListNotations.
Local Open Scope string_scope.
Local Open Scope list_scope.
Local Open Scope Z_scope.

(** ** C15 *)

(** Walk makes exactly the calls [visits]: for every visitor whose Visit method
    does not panic and answers by [g], with any effect [f] on any state. *)
Theorem C15_walk_calls (V S : Type) (g : V -> node -> option V) (f : V -> node -> S -> S) v n s :
  ~ In NNil (subnodes n) ->
  walk V S (fun v n s => Some (g v n, f v n s)) v n s =
  Some (fold_left (fun s c => f (fst c) (snd c) s) (visits V g v n) s).
Proof. intros N. exact (walk_visits V S _ g f (fun _ _ _ => eq_refl) n N v s). Qed.

(** For a visitor that always returns itself: one call per node, in depth-first
    source order, and as many calls with nil. *)
Theorem C15_walk_order (V : Type) (v : V) n :
  ~ In NNil (subnodes n) ->
  filter (fun x => negb (is_nil x)) (map snd (visits V (fun w _ => Some w) v n)) = subnodes n /\
  List.length (filter is_nil (map snd (visits V (fun w _ => Some w) v n))) = List.length (subnodes n).
Proof. apply visits_all. Qed.

(** A visitor that answers nil gets no further call for that subtree. *)
Theorem C15_walk_prune (V S : Type) (g : V -> node -> option V) (f : V -> node -> S -> S) v n s :
  g v n = None ->
  walk V S (fun v n s => Some (g v n, f v n s)) v n s = Some (f v n s).
Proof. intros G. rewrite walk_eq. now rewrite G. Qed.

(** The tree and calls of the walk of  \sqrt[n]{x}. *)
Example C15_ex :
  let t := NMacro (Some (0, "\sqrt")) [NOptArg 5 [NWord 6 "n"] 7; NArg 8 [NWord 9 "x"] 10] in
  inspect (list node) (fun n log => Some (true, log ++ [n])) t [] =
  Some [t; NIdent 0 "\sqrt"; NNil; NOptArg 5 [NWord 6 "n"] 7; NWord 6 "n"; NNil; NNil;
        NArg 8 [NWord 9 "x"] 10; NWord 9 "x"; NNil; NNil; NNil] /\
  inspect (list node) (fun n log => Some (match n with NOptArg _ _ _ => false | _ => true end, log ++ [n])) t [] =
  Some [t; NIdent 0 "\sqrt"; NNil; NOptArg 5 [NWord 6 "n"] 7;
        NArg 8 [NWord 9 "x"] 10; NWord 9 "x"; NNil; NNil; NNil].
Proof. split; vm_compute; reflexivity. Qed.

(** ** C16 *)

(** A visitor that accepts every node makes Walk panic exactly on the trees
    with a nil node. *)
Theorem C16_walk_panics_iff_nil (V S : Type) (g : V -> node -> option V) (f : V -> node -> S -> S) v n s :
  (forall v n, g v n <> None) ->
  (walk V S (fun v n s => Some (g v n, f v n s)) v n s = None <-> In NNil (subnodes n)).
Proof.
  intros G. split.
  - intros H. destruct (in_dec (fun a b : bool => Bool.bool_dec a b) true (map is_nil (subnodes n))) as [I|I].
    + apply in_map_iff in I as (x & E & I). destruct x; try discriminate. exact I.
    + rewrite C15_walk_calls in H; [discriminate|]. intros J. apply I. apply in_map_iff. now exists NNil.
  - intros I. exact (walk_nil V S _ g f (fun _ _ _ => eq_refl) G n I v s).
Qed.

(** Such trees come out of the parser. *)
Theorem C16_parsed_tree_panics :
  exists ns, parse_expr ascii_only "$x^ 2$" = Ok ns /\
    forall (S : Type) (f : node -> S -> S) s,
      inspect S (fun n s => Some (true, f n s)) (NList ns) s = None.
Proof.
  eexists. split; [vm_compute; reflexivity|]. intros. reflexivity.
Qed.

(** ** C17 *)

(** Print writes something for every tree whose macros are named; parsed trees
    are such trees. *)
Theorem C17_print_total quote n : Forall named (subnodes n) -> exists s, print quote n = Some s.
Proof.
  intros H. apply (print_total quote) in H. destruct (print quote n) as [s|]; [eauto|congruence].
Qed.

Theorem C17_parsed_trees_print U x ns quote :
  parse_expr U x = Ok ns -> exists s, print quote (NList ns) = Some s.
Proof.
  intros P. apply C17_print_total. cbn. constructor; [exact I|]. apply Forall_forall. intros n In_.
  destruct n; try exact I. destruct (C07_macro_nodes U x ns name args P In_) as (p & t & sg & -> & _). exact I.
Qed.

(** The output determines the tree up to positions and math delimiters, and
    depends on nothing else. *)
Theorem C17_print_identifies quote x y sx sy :
  self_delimiting quote -> print quote x = Some sx -> print quote y = Some sy ->
  (sx = sy <-> erase x = erase y).
Proof.
  intros Q Px Py. split.
  - intros ->. refine (proj1 (print_inj quote Q x y sy sy "" "" Px Py eq_refl)).
  - intros E. rewrite <- print_erase, E, print_erase, Py in Px. congruence.
Qed.

(** The hypothesis holds of the %q quoting of ASCII strings. *)
Theorem C17_quote : self_delimiting go_quote.
Proof. exact go_quote_self_delimiting. Qed.

(** ast_test.go TestPrint *)
Example C17_ex :
  map (print go_quote)
    [NNil; NMacro (Some (42, "\cos")) [];
     NMacro (Some (42, "\sqrt")) [NArg 0 [NWord 0 "x"] 0];
     NMacro (Some (42, "\sqrt")) [NOptArg 0 [NWord 0 "n"] 0; NArg 0 [NWord 0 "x"] 0];
     NWord 0 "hello"; NSym 0 "$"; NLit 0 "10"; NSup 0 (NLit 0 "10"); NSub 0 (NLit 0 "10");
     NList [NLit 0 "1"; NLit 0 "2"]; NMath "" 0 [NLit 0 "1"; NWord 0 "x"] 0; NIdent 0 "\cos"] =
  map Some
    ["<nil>"; "ast.Macro{""\\cos""}"; "ast.Macro{""\\sqrt"", Args:{ast.Word{""x""}}}";
     "ast.Macro{""\\sqrt"", Args:[ast.Word{""n""}], {ast.Word{""x""}}}"; "ast.Word{""hello""}";
     "ast.Symbol{""$""}"; "ast.Lit{""10""}"; "ast.Sup{ast.Lit{""10""}}"; "ast.Sub{ast.Lit{""10""}}";
     "ast.List{ast.Lit{""1""}, ast.Lit{""2""}}"; "ast.MathExpr{List:ast.Lit{""1""}, ast.Word{""x""}}";
     "ast.Ident{""\\cos""}"].
Proof. vm_compute. reflexivity. Qed.

Print Assumptions C15_walk_calls.
Print Assumptions C15_walk_order.
Print Assumptions C15_walk_prune.
Print Assumptions C16_walk_panics_iff_nil.
Print Assumptions C16_parsed_tree_panics.
Print Assumptions C17_print_total.
Print Assumptions C17_parsed_trees_print.
Print Assumptions C17_print_identifies.
Print Assumptions C17_quote.
