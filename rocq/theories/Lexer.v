(** Model of scanner.go (texScanner). *)
From Coq Require Import ZArith String List Bool.
From Verif Require Import Utf8 GoScanner Token.
Import ListNotations.
Local Open Scope Z_scope.

(** State of the scanner between two calls of Next: byte offset of the
    look-ahead character and the characters not yet consumed. *)
Record lstate : Type := mk_ls { l_off : Z; l_rest : list chr }.

(** A token together with the source extent it was read from: [x_skip] the
    whitespace skipped before it, [x_raw] its own characters, [x_peek] what
    s.sc.Peek() returns right after it. *)
Record lexeme : Type := mk_lx {
  x_tok : token; x_skip : list chr; x_raw : list chr; x_peek : Z }.

Inductive lexres : Type :=
  | LexOk (x : lexeme) (s : lstate)
  | LexPanic (r : Z).   (* scanner.go:151 "unhandled token" *)

Definition clen (l : list chr) : Z := zlen (raw_of l).

(** scanner.go:24-36 newScanner; text/scanner Peek drops a leading byte-order
    mark (3 bytes). *)
Definition BOM : Z := 65279.
Definition init_lex (x : string) : lstate :=
  match chars x with
  | c :: l => if c_rune c =? BOM then mk_ls (zlen (c_raw c)) l else mk_ls 0 (c :: l)
  | [] => mk_ls 0 []
  end.

Section WithLetters.
Variable uni_letter : Z -> bool.
Notation gscan := (gscan uni_letter).

(** scanner.go:174-194 scanComment: token after token without skipping
    whitespace, until a newline token or the end.  Result: comment text after
    the '%', consumed characters, rest.  Recursion on [fuel] >= number of
    characters (each Scan consumes at least one). *)
Fixpoint scan_comment (fuel : nat) (l : list chr) : string * list chr * list chr :=
  match fuel with
  | O => (EmptyString, [], l)
  | S n =>
    match gscan false l with
    | (GEOF, _, a, b) => (EmptyString, a, b)
    | (GRune r, _, a, b) =>
      if r =? 10 then (EmptyString, a, b)
      else
        match scan_comment n b with
        | (t, a', b') =>
          ((if r =? 13 then t else append (raw_of a) t), a ++ a', b')
        end
    | (_, _, a, b) =>
      match scan_comment n b with
      | (t, a', b') => (append (raw_of a) t, a ++ a', b')
      end
    end
  end.

(** scanner.go:89-90: the runes lexed as Symbol. *)
Definition is_symbol_rune (r : Z) : bool :=
  existsb (Z.eqb r)
    [36; 95; 61; 60; 62; 94; 47; 42; 45; 43; 33; 63; 39; 58; 44; 59; 46].

(** scanner.go:97-132: brackets, braces and parentheses. *)
Definition bracket_kind (r : Z) : option kind :=
  if r =? 91 then Some KLbrack
  else if r =? 93 then Some KRbrack
  else if r =? 123 then Some KLbrace
  else if r =? 125 then Some KRbrace
  else if r =? 40 then Some KLparen
  else if r =? 41 then Some KRparen
  else None.

(** scanner.go:51-153 scan (with 155-172 next and scanMacro inlined), one call
    of Next (scanner.go:46-49). *)
Definition lex1 (s : lstate) : lexres :=
  let l0 := l_rest s in
  match gscan true l0 with
  | (g, sk, a, b) =>
    let pos := l_off s + clen sk in
    let ok k txt raw rest :=
      LexOk (mk_lx (mk_tok k pos txt) sk raw (peek rest))
            (mk_ls (pos + clen raw) rest) in
    match g with
    | GIdent => ok KWord (raw_of a) a b
    | GInt | GFloat => ok KNumber (raw_of a) a b
    | GString => ok KOther (raw_of a) a b
    | GEOF => ok KEOF EmptyString a b
    | GRune r =>
      if r =? 92 then
        if peek b =? 32 then
          (* s.next() reads the blank *)
          match gscan true b with
          | (_, sk2, a2, b2) => ok KSpace "\ "%string (a ++ sk2 ++ a2) b2
          end
        else
          match gscan true b with
          | (_, sk2, a2, b2) =>
            ok KMacro (append "\" (raw_of a2)) (a ++ sk2 ++ a2) b2
          end
      else if r =? 32 then ok KSpace " "%string a b
      else if r =? 37 then
        match scan_comment (S (List.length b)) b with
        | (t, a2, b2) => ok KComment (append "%" t) (a ++ a2) b2
        end
      else if is_symbol_rune r then ok KSymbol (raw_of a) a b
      else
        match bracket_kind r with
        | Some k => ok k (raw_of a) a b
        | None => LexPanic r
        end
    end
  end.

(** All tokens up to and excluding EOF (for the specification); the flag is
    the panic, if any.  [fuel] = number of characters + 1. *)
Fixpoint lex_all_fuel (fuel : nat) (s : lstate) : list lexeme * option lexres :=
  match fuel with
  | O => ([], None)
  | S n =>
    match lex1 s with
    | LexOk x s' =>
      if kind_beq (t_kind (x_tok x)) KEOF then ([], Some (LexOk x s'))
      else let (xs, e) := lex_all_fuel n s' in (x :: xs, e)
    | LexPanic r => ([], Some (LexPanic r))
    end
  end.

Definition lex_all (x : string) : list lexeme * option lexres :=
  lex_all_fuel (S (List.length (l_rest (init_lex x)))) (init_lex x).

End WithLetters.
