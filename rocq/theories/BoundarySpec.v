(** Specification: documents whose constructs are all complete, and when a text
    may be cut at a point without cutting a token. *)
From Coq Require Import ZArith String Ascii List Bool.
From Verif Require Import Utf8 GoScanner Token Lexer Ast Grammar Stream.
Import ListNotations.
Local Open Scope string_scope.
Local Open Scope list_scope.
Local Open Scope Z_scope.

(** The exponent characters after which a sign belongs to a number. *)
Definition is_exp (r : Z) : bool := (r =? 101) || (r =? 69) || (r =? 112) || (r =? 80).

(** The character [c] does not continue the number [a]. *)
Definition num_stop (a : list chr) (c : Z) : bool :=
  negb (is_ascii_letter c) && negb (is_decimal c) && negb (c =? 95) && negb (c =? 46)
  && (negb ((c =? 43) || (c =? 45))
      || match rev a with d :: _ => negb (is_exp (c_rune d)) | [] => true end).

(** The character [c] directly after the token [x] does not change it. *)
Definition tail_ok U (x : lexeme) (c : Z) : bool :=
  match xk x with
  | KWord => negb (is_letter U c)
  | KNumber => num_stop (x_raw x) c
  | KSymbol => negb (String.eqb (xt x) "." && is_decimal c)
  | KMacro =>
    match snd (span is_ws (tl (x_raw x))) with
    | [] => false
    | c0 :: nm =>
      let r := c_rune c0 in
      if is_letter U r then negb (is_letter U c)
      else negb (is_decimal r) && negb (r =? 34)
           && (negb (r =? 46) || match nm with [] => negb (is_decimal c) | _ => false end)
    end
  | KComment =>
    match rev (x_raw x) with
    | d :: body => (c_rune d =? 10) && forallb (fun y => negb (c_rune y =? 34) && negb (c_rune y =? 10)) body
    | [] => false
    end
  | KOther => false
  | _ => true
  end.

(** A sequence of complete constructs: none is cut short by the end of the
    input. *)
Inductive GSeq (macro_sig : string -> option (list slot)) (m : bool) : list lexeme -> list node -> Prop :=
| Q_nil : GSeq macro_sig m [] []
| Q_cons xs n ys ns :
    GNode macro_sig m xs n false -> GSeq macro_sig m ys ns ->
    GSeq macro_sig m (xs ++ ys) (keep n ns).

(** The input [a] is a sequence of complete constructs in text mode, which
    stands for the nodes [ns]. *)
Definition Complete U (a : string) (ns : list node) : Prop :=
  exists xs, Tokens U a xs /\ GSeq known_macro false xs ns.

(** Appending [b] to [a] changes no token of [a] and no character:
    - [b] does not start with a UTF-8 continuation byte;
    - [b] does not start with a byte-order mark;
    - unless [a] ends with whitespace that follows its last token, the first
      character of [b] does not continue that token. *)
Definition first_byte_ok (b : string) : Prop :=
  match b with "" => True | String c _ => byte c < 128 \/ 192 <= byte c end.

Definition ends_ws (a : string) (xs : list lexeme) : Prop :=
  match rev xs with
  | [] => True
  | l :: _ => xp l + clen (x_raw l) < zlen a
  end.

Definition Cut U (a b : string) : Prop :=
  first_byte_ok b /\ fst (decode_rune b) <> BOM /\
  forall xs, Tokens U a xs -> b <> "" ->
    ends_ws a xs \/
    match rev xs with [] => True | l :: _ => tail_ok U l (fst (decode_rune b)) = true end.
