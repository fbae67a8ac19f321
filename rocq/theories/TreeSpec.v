(** Specification vocabulary on syntax trees and source texts (no parser here). *)
From Coq Require Import ZArith String Ascii List Bool.
From Verif Require Import Utf8 GoScanner Token Lexer Ast Grammar.
Import ListNotations.
Local Open Scope string_scope.
Local Open Scope list_scope.
Local Open Scope Z_scope.

(** All nodes of a tree in source order, the tree itself first; a macro's name
    is its first child. *)
Fixpoint subnodes (n : node) : list node :=
  n :: match n with
       | NList l | NArg _ l _ | NOptArg _ l _ | NMath _ _ l _ => flat_map subnodes l
       | NMacro nm l =>
         (match nm with Some (p, t) => [NIdent p t] | None => [] end) ++ flat_map subnodes l
       | NSub _ x | NSup _ x => subnodes x
       | _ => []
       end.

(** The tokens a tree stands for, with positions, leaving out what the tree
    does not record: braces, comments and spaces.  A closing delimiter is
    listed if its position is recorded (nonzero). *)
Definition close_tok (p : Z) (t : string) : list (Z * string) :=
  if p =? 0 then [] else [(p, t)].

Definition is_space_text (t : string) : bool := String.eqb t " " || String.eqb t "\ ".

Fixpoint tree_tokens (n : node) : list (Z * string) :=
  match n with
  | NNil => []
  | NList l => flat_map tree_tokens l
  | NMacro nm l => match nm with Some pt => [pt] | None => [] end ++ flat_map tree_tokens l
  | NArg _ l _ => flat_map tree_tokens l
  | NOptArg a l b => (a, "[") :: flat_map tree_tokens l ++ close_tok b "]"
  | NIdent p t => [(p, t)]
  | NMath _ a l b => (a, "$") :: flat_map tree_tokens l ++ close_tok b "$"
  | NWord p t | NLit p t => [(p, t)]
  | NSym p t => if is_space_text t then [] else [(p, t)]
  | NSub p x => (p, "_") :: tree_tokens x
  | NSup p x => (p, "^") :: tree_tokens x
  end.

(** Tokens that are neither comments, nor spaces, nor braces. *)
Definition solid (x : lexeme) : bool :=
  match xk x with KComment | KSpace | KLbrace | KRbrace => false | _ => true end.
Definition pos_text (x : lexeme) : Z * string := (xp x, xt x).

(** Arguments fit the slots of a macro. *)
Inductive args_match : list slot -> list node -> Prop :=
| am_nil : args_match [] []
| am_req a l b sg args : args_match sg args -> args_match (Req :: sg) (NArg a l b :: args)
| am_opt a l b sg args : args_match sg args -> args_match (Opt :: sg) (NOptArg a l b :: args)
| am_noopt sg args : args_match sg args -> args_match (Opt :: sg) args.

(** A blank symbol node. *)
Definition is_blank (n : node) : bool :=
  match n with NSym _ t => is_space_text t | _ => false end.

(** Sub/Sup operands excepted, no nil below a node. *)
Definition script_operand (n : node) : option node :=
  match n with NSub _ x | NSup _ x => Some x | _ => None end.

Definition list_children (n : node) : list node :=
  match n with
  | NList l | NArg _ l _ | NOptArg _ l _ | NMath _ _ l _ | NMacro _ l => l
  | _ => []
  end.

(** Moving a tree by [d] bytes: every recorded position moves, except 0 as the
    position of a missing closing delimiter. *)
Definition shift_close (d p : Z) : Z := if p =? 0 then 0 else p + d.

Fixpoint shift (d : Z) (n : node) : node :=
  match n with
  | NNil => NNil
  | NList l => NList (map (shift d) l)
  | NMacro nm l =>
    NMacro (match nm with Some (p, t) => Some (p + d, t) | None => None end) (map (shift d) l)
  | NArg a l b => NArg (a + d) (map (shift d) l) (shift_close d b)
  | NOptArg a l b => NOptArg (a + d) (map (shift d) l) (shift_close d b)
  | NIdent p t => NIdent (p + d) t
  | NMath dl a l b => NMath dl (a + d) (map (shift d) l) (shift_close d b)
  | NWord p t => NWord (p + d) t
  | NLit p t => NLit (p + d) t
  | NSym p t => NSym (p + d) t
  | NSub p x => NSub (p + d) (shift d x)
  | NSup p x => NSup (p + d) (shift d x)
  end.

(** Strictly increasing. *)
Fixpoint increasing (l : list Z) : Prop :=
  match l with
  | a :: l' => match l' with b :: _ => a < b | [] => True end /\ increasing l'
  | [] => True
  end.

(** The tokens of a tree as in [tree_tokens], but with the spaces it records. *)
Fixpoint tree_tokens_sp (n : node) : list (Z * string) :=
  match n with
  | NNil => []
  | NList l => flat_map tree_tokens_sp l
  | NMacro nm l => match nm with Some pt => [pt] | None => [] end ++ flat_map tree_tokens_sp l
  | NArg _ l _ => flat_map tree_tokens_sp l
  | NOptArg a l b => (a, "[") :: flat_map tree_tokens_sp l ++ close_tok b "]"
  | NIdent p t => [(p, t)]
  | NMath _ a l b => (a, "$") :: flat_map tree_tokens_sp l ++ close_tok b "$"
  | NWord p t | NLit p t => [(p, t)]
  | NSym p t => [(p, t)]
  | NSub p x => (p, "_") :: tree_tokens_sp x
  | NSup p x => (p, "^") :: tree_tokens_sp x
  end.

(** Tokens that are neither comments nor braces. *)
Definition solid_sp (x : lexeme) : bool :=
  match xk x with KComment | KLbrace | KRbrace => false | _ => true end.

(** The nodes of a tree that are not inside a math expression. *)
Fixpoint text_subnodes (n : node) : list node :=
  n :: match n with
       | NList l | NArg _ l _ | NOptArg _ l _ => flat_map text_subnodes l
       | NMacro nm l =>
         (match nm with Some (p, t) => [NIdent p t] | None => [] end) ++ flat_map text_subnodes l
       | NSub _ x | NSup _ x => text_subnodes x
       | _ => []
       end.

(** The nodes strictly inside some math expression of the tree. *)
Definition math_content (n : node) : list node :=
  match n with NMath _ _ l _ => flat_map subnodes l | _ => [] end.

(** The right spine of a node list: the last node, its last child, and so on. *)
Fixpoint spine (n : node) : list node :=
  let fix last_spine (l : list node) : list node :=
    match l with
    | [] => []
    | [x] => spine x
    | _ :: l' => last_spine l'
    end in
  n :: match n with
       | NList l | NArg _ l _ | NOptArg _ l _ | NMath _ _ l _ | NMacro _ l => last_spine l
       | NSub _ x | NSup _ x => spine x
       | _ => []
       end.

Fixpoint last_spine (l : list node) : list node :=
  match l with
  | [] => []
  | [x] => spine x
  | _ :: l' => last_spine l'
  end.

(** The recorded closing position of a delimited node. *)
Definition closing (n : node) : option Z :=
  match n with NArg _ _ b | NOptArg _ _ b | NMath _ _ _ b => Some b | _ => None end.

(** A recorded position is real: -1 is the Pos/End of an empty list, 0 the
    closing position of an unclosed group. *)
Definition real_pos (n : node) (p : Z) : Prop := node_pos n = Some p /\ p <> -1.
Definition real_end (n : node) (e : Z) : Prop := node_end n = Some e /\ e <> -1 /\ e <> 0.

(** Siblings are in source order and their extents do not overlap. *)
Fixpoint siblings_ordered (l : list node) : Prop :=
  match l with
  | [] => True
  | x :: l' =>
    (forall y p q, In y l' -> real_pos x p -> real_pos y q -> p < q) /\
    (forall y e q, In y l' -> real_end x e -> real_pos y q -> e <= q) /\
    siblings_ordered l'
  end.

(** A string of TABs, LFs and CRs only: the whitespace the lexer skips. *)
Definition ws_string (w : string) : Prop :=
  forall a, In a (list_ascii_of_string w) ->
    byte a = 9 \/ byte a = 10 \/ byte a = 13.

(** [Tiles o src xs o' src']: reading the source [src], which starts at byte
    offset [o], one finds the lexemes [xs] one after the other, separated by
    whitespace only, each at its recorded position and with its recorded
    non-empty extent; what is left is [src'], at offset [o']. *)
Inductive Tiles : Z -> string -> list lexeme -> Z -> string -> Prop :=
| T_nil o src : Tiles o src [] o src
| T_cons o gap ext src l xs o' src' :
    ws_string gap -> ext <> "" -> ext = raw_of (x_raw l) -> xp l = o + zlen gap ->
    Tiles (o + zlen gap + zlen ext) src xs o' src' ->
    Tiles o (append gap (append ext src)) (l :: xs) o' src'.

(** The UTF-8 encoded byte-order mark, which the scanner drops at the start. *)
Definition bom_bytes : string := String "239" (String "187" (String "191" "")).
