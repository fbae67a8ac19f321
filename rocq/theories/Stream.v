(** Token streams and the table of known macros, as used in the statements. *)
From Coq Require Import ZArith String Ascii List Bool.
From Verif Require Import Utf8 GoScanner Token Lexer Ast MacroTable SymTable Parser Grammar.
Import ListNotations.
Local Open Scope string_scope.
Local Open Scope Z_scope.

(** Signatures as argument slots: 'a' is required, 'o' optional, anything else
    nothing. *)
Fixpoint sig_slots (s : string) : list slot :=
  match s with
  | EmptyString => []
  | String c s' =>
    match lower_ascii c with
    | "a"%char => Req :: sig_slots s'
    | "o"%char => Opt :: sig_slots s'
    | _ => sig_slots s'
    end
  end.

(** The known macros with their argument slots. *)
Definition known_macro (name : string) : option (list slot) :=
  match lookup_macro name with
  | Some (Some sig) => Some (sig_slots sig)
  | _ => None
  end.

Section WithLetters.
Variable U : Z -> bool.
Notation lex1 := (lex1 U).

(** [Lexes s xs s']: Next called |xs| times from [s] returns the tokens [xs],
    none of them EOF, and leaves the scanner in [s']. *)
Inductive Lexes : lstate -> list lexeme -> lstate -> Prop :=
| Lx_nil s : Lexes s [] s
| Lx_cons s x s1 xs s2 :
    lex1 s = LexOk x s1 -> xk x <> KEOF -> Lexes s1 xs s2 -> Lexes s (x :: xs) s2.

(** Next returns EOF. *)
Definition EofStep (s s' : lstate) : Prop :=
  exists x, lex1 s = LexOk x s' /\ xk x = KEOF.

Definition Reads (s : lstate) (xs : list lexeme) (o : bool) (s' : lstate) : Prop :=
  exists s2, Lexes s xs s2 /\ if o then EofStep s2 s' else s' = s2.

(** [Tokens x xs]: the lexer turns the input into the tokens [xs] and then
    reports EOF. *)
Definition Tokens (x : string) (xs : list lexeme) : Prop :=
  exists s, Reads (init_lex x) xs true s.

End WithLetters.
