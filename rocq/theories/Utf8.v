(** UTF-8 decoding as done by Go's unicode/utf8 package (standard library, not
    in /repo).  Used by text/scanner (scanner.go:26 [sc.sc.Init]) and by
    internal/tex2unicode/utf8.go:18,34 ([utf8.DecodeRune]). *)
From Coq Require Import ZArith String Ascii List Bool Lia.
Import ListNotations.
Local Open Scope Z_scope.

(** A byte as a number 0..255. *)
Definition byte (a : ascii) : Z := Z.of_N (N_of_ascii a).

Definition in_range (lo hi x : Z) : bool := (lo <=? x) && (x <=? hi).

(** utf8.RuneError *)
Definition RuneError : Z := 65533.

(** Continuation byte 0x80..0xBF. *)
Definition cont (a : ascii) : bool := in_range 128 191 (byte a).

(** Range accepted for the second byte, given the first one
    (Go: utf8.acceptRanges / utf8.first). *)
Definition accept2 (b0 : Z) (b1 : Z) : bool :=
  if b0 =? 224 then in_range 160 191 b1
  else if b0 =? 237 then in_range 128 159 b1
  else if b0 =? 240 then in_range 144 191 b1
  else if b0 =? 244 then in_range 128 143 b1
  else in_range 128 191 b1.

(** utf8.DecodeRune: the first rune of the byte string and its width in bytes.
    An empty string gives (RuneError, 0); an invalid or incomplete encoding
    gives (RuneError, 1). *)
Definition decode_rune (s : string) : Z * nat :=
  match s with
  | EmptyString => (RuneError, 0%nat)
  | String a0 s1 =>
    let b0 := byte a0 in
    if b0 <? 128 then (b0, 1%nat)
    else if in_range 194 223 b0 then
      match s1 with
      | String a1 _ =>
        if accept2 b0 (byte a1)
        then ((b0 - 192) * 64 + (byte a1 - 128), 2%nat) else (RuneError, 1%nat)
      | _ => (RuneError, 1%nat)
      end
    else if in_range 224 239 b0 then
      match s1 with
      | String a1 (String a2 _) =>
        if accept2 b0 (byte a1) && cont a2
        then ((b0 - 224) * 4096 + (byte a1 - 128) * 64 + (byte a2 - 128), 3%nat)
        else (RuneError, 1%nat)
      | _ => (RuneError, 1%nat)
      end
    else if in_range 240 244 b0 then
      match s1 with
      | String a1 (String a2 (String a3 _)) =>
        if accept2 b0 (byte a1) && cont a2 && cont a3
        then ((b0 - 240) * 262144 + (byte a1 - 128) * 4096
              + (byte a2 - 128) * 64 + (byte a3 - 128), 4%nat)
        else (RuneError, 1%nat)
      | _ => (RuneError, 1%nat)
      end
    else (RuneError, 1%nat)
  end.

(** First [n] bytes / all but the first [n] bytes. *)
Fixpoint stake (n : nat) (s : string) : string :=
  match n, s with
  | S n', String a s' => String a (stake n' s')
  | _, _ => EmptyString
  end.

Fixpoint sdrop (n : nat) (s : string) : string :=
  match n, s with
  | S n', String _ s' => sdrop n' s'
  | _, _ => s
  end.

(** One character of the source: its rune and the bytes it was read from. *)
Record chr : Type := mk_chr { c_rune : Z; c_raw : string }.

(** The successive results of text/scanner's [next] (standard library), i.e.
    repeated utf8.DecodeRune.  [fuel] is the length of the input: every step
    consumes at least one byte, so it is never exhausted ([chars_raw]). *)
Fixpoint chars_fuel (fuel : nat) (s : string) : list chr :=
  match fuel with
  | O => []
  | S n =>
    match s with
    | EmptyString => []
    | _ => let (r, w) := decode_rune s in
           mk_chr r (stake w s) :: chars_fuel n (sdrop w s)
    end
  end.

Definition chars (s : string) : list chr := chars_fuel (String.length s) s.

(** The bytes a list of characters was read from. *)
Fixpoint raw_of (l : list chr) : string :=
  match l with
  | [] => EmptyString
  | c :: l' => append (c_raw c) (raw_of l')
  end.

(** Length of a string as a Go int. *)
Definition zlen (s : string) : Z := Z.of_nat (String.length s).

(** UTF-8 encoding of a rune (Go: utf8.EncodeRune / string(rune)), used by the
    model for [string(x)] in mtex/parser.go:89,95,294.  Invalid runes
    (surrogates, out of range) are encoded as RuneError, as in Go. *)
Definition zascii (z : Z) : ascii := ascii_of_N (Z.to_N z).

Definition valid_rune (r : Z) : bool :=
  in_range 0 55295 r || in_range 57344 1114111 r.

Definition encode_valid (r : Z) : string :=
  if r <? 128 then String (zascii r) EmptyString
  else if r <? 2048 then
    String (zascii (192 + r / 64)) (String (zascii (128 + r mod 64)) EmptyString)
  else if r <? 65536 then
    String (zascii (224 + r / 4096))
     (String (zascii (128 + (r / 64) mod 64))
       (String (zascii (128 + r mod 64)) EmptyString))
  else
    String (zascii (240 + r / 262144))
     (String (zascii (128 + (r / 4096) mod 64))
       (String (zascii (128 + (r / 64) mod 64))
         (String (zascii (128 + r mod 64)) EmptyString))).

Definition encode_rune (r : Z) : string :=
  if valid_rune r then encode_valid r else encode_valid RuneError.
