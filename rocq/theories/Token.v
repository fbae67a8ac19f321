(** Model of token/token.go and token/kind_string.go. *)
From Coq Require Import ZArith String Ascii List Bool.
Import ListNotations.
Local Open Scope string_scope.
Local Open Scope Z_scope.

(** token/token.go:16-36 Kind *)
Inductive kind : Type :=
  | KInvalid | KMacro | KEmptyLine | KComment | KSpace | KWord | KNumber | KSymbol
  | KLbrace | KRbrace | KLbrack | KRbrack | KLparen | KRparen | KOther | KVerbatim | KEOF.

Scheme Equality for kind.

(** token/token.go:18-36: the numeric values (iota) *)
Definition kind_int (k : kind) : Z :=
  match k with
  | KInvalid => 0 | KMacro => 1 | KEmptyLine => 2 | KComment => 3 | KSpace => 4
  | KWord => 5 | KNumber => 6 | KSymbol => 7 | KLbrace => 8 | KRbrace => 9
  | KLbrack => 10 | KRbrack => 11 | KLparen => 12 | KRparen => 13 | KOther => 14
  | KVerbatim => 15 | KEOF => 16
  end.

(** token/token.go:39-43 Token *)
Record token : Type := mk_tok { t_kind : kind; t_pos : Z; t_text : string }.

(** token/kind_string.go:34 _Kind_name *)
Definition kind_name : string :=
  "InvalidMacroEmptyLineCommentSpaceWordNumberSymbolLbraceRbraceLbrackRbrackLparenRparenOtherVerbatimEOF".

(** token/kind_string.go:36 _Kind_index *)
Definition kind_index : list Z :=
  [0; 7; 12; 21; 28; 33; 37; 43; 49; 55; 61; 67; 73; 79; 85; 90; 98; 101].

(** strconv.FormatInt(i, 10) (standard library), digits of a natural number. *)
Fixpoint digits_fuel (n : nat) (z : Z) (acc : string) : string :=
  match n with
  | O => acc
  | S n' =>
    let acc' := String (Ascii.ascii_of_N (Z.to_N (48 + z mod 10))) acc in
    if z <? 10 then acc' else digits_fuel n' (z / 10) acc'
  end.
Definition format_int (z : Z) : string :=
  if z <? 0 then String "-"%char (digits_fuel (S (Z.to_nat (Z.log2 (- z)))) (- z) "")
  else digits_fuel (S (Z.to_nat (Z.log2 z))) z "".

(** Go slice expression s[i:j] on a string; None models the index panic. *)
Definition slice (s : string) (i j : Z) : option string :=
  if (0 <=? i) && (i <=? j) && (j <=? Z.of_nat (String.length s))
  then Some (substring (Z.to_nat i) (Z.to_nat (j - i)) s) else None.

(** Go index expression on an array; None models the index panic. *)
Definition index_arr (l : list Z) (i : Z) : option Z :=
  if i <? 0 then None else nth_error l (Z.to_nat i).

(** token/kind_string.go:38-43 Kind.String for an arbitrary int value; None
    would be a run-time panic. *)
Definition kind_string (i : Z) : option string :=
  if (i <? 0) || (Z.of_nat (List.length kind_index) - 1 <=? i)
  then Some ("Kind(" ++ format_int i ++ ")")%string
  else
    match index_arr kind_index i, index_arr kind_index (i + 1) with
    | Some a, Some b => slice kind_name a b
    | _, _ => None
    end.
