(** Specification: which token sequences a syntax tree stands for.

    This is the grammar of the language accepted by ParseExpr, written as
    inductive relations over lexemes (tokens with the character that follows
    them).  It does not mention the parser.  The boolean index of each relation
    tells whether the construct was cut short by the end of the input (an
    unclosed group); such a construct can only be the last one. *)
From Coq Require Import ZArith String Ascii List Bool.
From Verif Require Import Utf8 GoScanner Token Lexer Ast.
Import ListNotations.
Local Open Scope string_scope.
Local Open Scope Z_scope.

Definition xk (x : lexeme) : kind := t_kind (x_tok x).
Definition xt (x : lexeme) : string := t_text (x_tok x).
Definition xp (x : lexeme) : Z := t_pos (x_tok x).

(** The closing token of a group. *)
Inductive closer : Type := CDollar | CBrace | CBrack | CNone.

Definition closes (c : closer) (x : lexeme) : Prop :=
  match c with
  | CDollar => xk x = KSymbol /\ xt x = "$"
  | CBrace => xk x = KRbrace
  | CBrack => xk x = KRbrack
  | CNone => False
  end.

(** Nil nodes (comments, spaces in math) are not put into node lists. *)
Definition keep (n : node) (l : list node) : list node :=
  match n with NNil => l | _ => n :: l end.

(** The character following a sequence of lexemes that is not cut short. *)
Definition peek_after (pk : Z) (xs : list lexeme) : Z :=
  match rev xs with [] => pk | x :: _ => x_peek x end.

(** One argument slot of a macro: required or optional. *)
Inductive slot : Type := Req | Opt.

Section Grammar.
(** [math]: inside $...$.  [macro_sig]: the table of known macros. *)
Variable macro_sig : string -> option (list slot).

Inductive GNode : bool -> list lexeme -> node -> bool -> Prop :=
| G_comment m x : xk x = KComment -> GNode m [x] NNil false
| G_space_math x : xk x = KSpace -> GNode true [x] NNil false
| G_space x : xk x = KSpace -> GNode false [x] (NSym (xp x) (xt x)) false
| G_word m x : xk x = KWord -> GNode m [x] (NWord (xp x) (xt x)) false
| G_number m x : xk x = KNumber -> GNode m [x] (NLit (xp x) (xt x)) false
| G_symbol m x :
    xk x = KSymbol -> xt x <> "$" -> xt x <> "^" -> xt x <> "_" ->
    GNode m [x] (NSym (xp x) (xt x)) false
| G_delim m x :
    xk x = KLparen \/ xk x = KRparen \/ xk x = KLbrack \/ xk x = KRbrack ->
    GNode m [x] (NSym (xp x) (xt x)) false
| G_math m x xs ns c o :
    xk x = KSymbol -> xt x = "$" -> GLoop true CDollar xs ns c o ->
    GNode m (x :: xs) (NMath "$" (xp x) ns c) o
| G_group x xs ns c o :
    xk x = KLbrace -> GLoop true CBrace xs ns c o ->
    GNode true (x :: xs) (NList ns) o
| G_sup m x xs n o :
    xk x = KSymbol -> xt x = "^" -> GScript m (x_peek x) xs n o ->
    GNode m (x :: xs) (NSup (xp x) n) o
| G_sub m x xs n o :
    xk x = KSymbol -> xt x = "_" -> GScript m (x_peek x) xs n o ->
    GNode m (x :: xs) (NSub (xp x) n) o
| G_macro m x xs sg args o :
    xk x = KMacro -> macro_sig (xt x) = Some sg ->
    GArgs m (x_peek x) sg xs args o ->
    GNode m (x :: xs) (NMacro (Some (xp x, xt x)) args) o

(** A sequence of nodes up to and including its closing token (whose position
    is recorded), or up to the end of the input (position 0). *)
with GLoop : bool -> closer -> list lexeme -> list node -> Z -> bool -> Prop :=
| L_end m cl : GLoop m cl [] [] 0 true
| L_close m cl x : closes cl x -> GLoop m cl [x] [] (xp x) false
| L_node m cl x xs n o ys ns c o' :
    ~ closes cl x -> GNode m (x :: xs) n o -> (o = true -> ys = []) ->
    GLoop m cl ys ns c o' ->
    GLoop m cl (x :: xs ++ ys) (keep n ns) c o'

(** The operand of ^ or _: a brace group if '{' follows at once, otherwise the
    next single construct. *)
with GScript : bool -> Z -> list lexeme -> node -> bool -> Prop :=
| S_group m pk x xs ns c o :
    pk = 123 -> xk x = KLbrace -> GLoop m CBrace xs ns c o ->
    GScript m pk (x :: xs) (NList ns) o
| S_node m pk x xs n o :
    pk <> 123 -> GNode m (x :: xs) n o -> GScript m pk (x :: xs) n o

(** Macro arguments. An optional argument is present iff '[' follows at once. *)
with GArgs : bool -> Z -> list slot -> list lexeme -> list node -> bool -> Prop :=
| A_nil m pk : GArgs m pk [] [] [] false
| A_req m pk sg x xs ns c o ys args o' :
    xk x = KLbrace -> GLoop m CBrace xs ns c o -> (o = true -> ys = []) ->
    GArgs m (if o then -1 else peek_after 0 (x :: xs)) sg ys args o' ->
    GArgs m pk (Req :: sg) (x :: xs ++ ys) (NArg (xp x) ns c :: args) (o || o')
| A_opt m pk sg x xs ns c o ys args o' :
    pk = 91 -> xk x = KLbrack -> GLoop m CBrack xs ns c o -> (o = true -> ys = []) ->
    GArgs m (if o then -1 else peek_after 0 (x :: xs)) sg ys args o' ->
    GArgs m pk (Opt :: sg) (x :: xs ++ ys) (NOptArg (xp x) ns c :: args) (o || o')
| A_noopt m pk sg xs args o :
    pk <> 91 -> GArgs m pk sg xs args o -> GArgs m pk (Opt :: sg) xs args o.

(** A whole document: a sequence of nodes in text mode up to the end of input. *)
Definition GDoc (xs : list lexeme) (ns : list node) : Prop :=
  GLoop false CNone xs ns 0 true.

End Grammar.

Scheme GNode_mut := Minimality for GNode Sort Prop
  with GLoop_mut := Minimality for GLoop Sort Prop
  with GScript_mut := Minimality for GScript Sort Prop
  with GArgs_mut := Minimality for GArgs Sort Prop.
Combined Scheme G_mutind from GNode_mut, GLoop_mut, GScript_mut, GArgs_mut.
