(** Model of mtex/symbols/set.go, mtex/symbols/symbols.go and
    internal/tex2unicode/utf8.go. *)
From Coq Require Import ZArith String Ascii List Bool.
From Verif Require Import Utf8 SymTable SetTable Parser.
Import ListNotations.
Local Open Scope string_scope.
Local Open Scope list_scope.
Local Open Scope Z_scope.

(** set.go:11 Set, a map[string]struct{}: a list of its distinct keys.  The
    order of the list means nothing; see [range] below. *)
Definition gset : Type := list string.

(** set.go:21-24 Has *)
Definition set_has (s : gset) (k : string) : bool := existsb (String.eqb k) s.

(** o[k] = struct{}{} (set.go:16,39) *)
Definition set_add (s : gset) (k : string) : gset := if set_has s k then s else k :: s.

(** set.go:13-19 NewSet *)
Definition new_set (vs : list string) : gset := fold_left set_add vs [].

(** sort.Strings (standard library): ascending byte-wise order. *)
Fixpoint insert_string (k : string) (l : list string) : list string :=
  match l with
  | [] => [k]
  | x :: l' => if String.leb k x then k :: l else x :: insert_string k l'
  end.
Definition sort_strings (l : list string) : list string := fold_right insert_string [] l.

Section Range.
  (** Go's map iteration: the order in which [for k := range set] delivers the
      keys is unspecified. *)
  Variable range : gset -> list string.

  (** set.go:26-33 Keys *)
  Definition set_keys (s : gset) : list string := sort_strings (range s).

  (** set.go:35-43 UnionOf *)
  Definition union_of (sets : list gset) : gset :=
    fold_left (fun o s => fold_left set_add (range s) o) sets [].

  (** symbols.go:10-12 SpacedSymbols (with symbols_gen.go:25,61,209) *)
  Definition SpacedSymbols : gset :=
    union_of [new_set BinaryOperators_list; new_set RelationSymbols_list; new_set ArrowSymbols_list].

  (** symbols.go:14-16 IsSpaced *)
  Definition is_spaced (s : string) : bool := set_has SpacedSymbols s.
End Range.

(** strings.Replace(v, `\`, "", 1) (standard library): delete the first
    backslash, if any. *)
Fixpoint drop_backslash (v : string) : string :=
  match v with
  | EmptyString => EmptyString
  | String a v' => if Ascii.eqb a "\" then v' else String a (drop_backslash v')
  end.

(** utf8.go:15-46 Index; None models the two panics. *)
Definition index (v : string) (math : bool) : option Z :=
  if negb math then
    let r := fst (decode_rune v) in
    if r =? RuneError then None else Some r
  else if String.eqb v "-" then Some 8722
  else
    let look := assoc (drop_backslash v) tex2uni in
    if Nat.eqb (String.length v) 1 then
      let r := fst (decode_rune v) in
      if negb (r =? RuneError) then Some r else look
    else look.

(** utf8.go:48-51 HasSymbol *)
Definition has_symbol (v : string) : bool :=
  match assoc v tex2uni with Some _ => true | None => false end.

(** utf8.go:53-59 Symbols, in some order *)
Definition symbols : list string := map fst tex2uni.
