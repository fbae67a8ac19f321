(** Specification: what each kind of panic is blamed on. *)
From Coq Require Import ZArith String Ascii List Bool.
From Verif Require Import Utf8 GoScanner Token Lexer Ast Parser Grammar Stream.
Import ListNotations.
Local Open Scope string_scope.
Local Open Scope list_scope.
Local Open Scope Z_scope.

(** A character no token can start with. *)
Definition unhandled U (r : Z) : Prop :=
  is_letter U r = false /\ is_decimal r = false /\ is_ws r = false /\
  is_symbol_rune r = false /\ bracket_kind r = None /\
  r <> 92 /\ r <> 32 /\ r <> 37 /\ r <> 34.

(** The cause of a panic, given the tokens [xs] read so far and the state [s]
    of the scanner after them. *)
Definition culprit U (q : pcode) (xs : list lexeme) (s : lstate) : Prop :=
  match q with
  | PUnhandled r => lex1 U s = LexPanic r /\ unhandled U r
  | PUnknownMacro nm =>
    exists ys l, xs = ys ++ [l] /\ xk l = KMacro /\ xt l = nm /\ lookup_macro nm = None
  | PNilMacro => exists ys l, xs = ys ++ [l] /\ xk l = KMacro /\ xt l = "\genfrac"
  | PExpected w g =>
    w = "{" /\
    ((exists ys l, xs = ys ++ [l] /\ xk l <> KLbrace /\ xt l = g) \/
     (g = "" /\ exists s', EofStep U s s'))
  | PBraceText => exists ys l, xs = ys ++ [l] /\ xk l = KLbrace
  | POther t => exists ys l, xs = ys ++ [l] /\ xk l = KOther /\ xt l = t
  | PImpossible k =>
    (k = KRbrace /\ exists ys l, xs = ys ++ [l] /\ xk l = KRbrace) \/
    (k = KEOF /\ exists s', EofStep U s s')
  end.

