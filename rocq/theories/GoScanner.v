(** Model of Go's text/scanner (standard library, not in /repo) in the
    configuration set up by scanner.go:24-36: Mode = ScanIdents | ScanInts |
    ScanFloats | ScanStrings, IsIdentRune = unicode.IsLetter, Whitespace =
    TAB, LF, CR (or none inside comments, scanner.go:177-181).

    The scanner's state is the list of characters not yet consumed (its head
    is the one-character look-ahead [s.ch]); offsets are kept by the caller.
    Every scanning function splits the remaining characters into the part it
    consumes and the rest. *)
From Coq Require Import ZArith String List Bool.
From Verif Require Import Utf8.
Import ListNotations.
Local Open Scope Z_scope.

(** scanner.EOF, Ident, Int, Float, String and plain characters. *)
Inductive gkind : Type :=
  | GEOF | GIdent | GInt | GFloat | GString | GRune (r : Z).

Definition is_decimal (r : Z) : bool := in_range 48 57 r.
(** text/scanner isHex: '0'..'9' or 'a' <= lower(ch) <= 'f' *)
Definition is_hex (r : Z) : bool :=
  is_decimal r || in_range 65 70 r || in_range 97 102 r.
Definition is_ascii_letter (r : Z) : bool := in_range 65 90 r || in_range 97 122 r.

(** The look-ahead character, scanner.EOF (-1) at the end of the input. *)
Definition peek (l : list chr) : Z :=
  match l with [] => -1 | c :: _ => c_rune c end.

Section WithLetters.
(** unicode.IsLetter on runes >= 128 (Unicode tables of the standard library):
    an arbitrary predicate. *)
Variable uni_letter : Z -> bool.

(** scanner.go:31-33 unicode.IsLetter *)
Definition is_letter (r : Z) : bool :=
  if r <? 128 then is_ascii_letter r else uni_letter r.

(** scanner.go:34, text/scanner Scan: [s.Whitespace & (1<<uint(ch)) != 0] *)
Definition is_ws (r : Z) : bool := (r =? 9) || (r =? 10) || (r =? 13).

(** Longest prefix of characters satisfying [p]. *)
Fixpoint span (p : Z -> bool) (l : list chr) : list chr * list chr :=
  match l with
  | c :: l' => if p (c_rune c) then let (a, b) := span p l' in (c :: a, b) else ([], l)
  | [] => ([], [])
  end.

(** text/scanner digits: base <= 10 accepts every decimal digit, base 16 hex. *)
Definition is_dig (hex : bool) (r : Z) : bool :=
  (if hex then is_hex r else is_decimal r) || (r =? 95).

(** text/scanner scanNumber, exponent part: e/E/p/P, optional sign, digits.
    Ill-formed literals only produce messages on stderr. Returns whether an
    exponent was read. *)
Definition scan_exponent (l : list chr) : bool * list chr * list chr :=
  match l with
  | c :: l1 =>
    let r := c_rune c in
    if (r =? 101) || (r =? 69) || (r =? 112) || (r =? 80) then
      let (sg, l2) :=
        match l1 with
        | d :: l2 => if (c_rune d =? 43) || (c_rune d =? 45) then ([d], l2) else ([], l1)
        | [] => ([], [])
        end in
      let (ds, l3) := span (is_dig false) l2 in
      (true, c :: sg ++ ds, l3)
    else (false, [], l)
  | [] => (false, [], [])
  end.

(** text/scanner scanNumber, fractional part and exponent ([dot] = the radix
    point has already been consumed). *)
Definition scan_frac (hex : bool) (l : list chr) : list chr * list chr :=
  let (ds, l1) := span (is_dig hex) l in
  match scan_exponent l1 with (_, e, l2) => (ds ++ e, l2) end.

(** text/scanner scanNumber with seenDot = false; [l] starts with a digit. *)
Definition scan_number (l : list chr) : gkind * list chr * list chr :=
  (* prefix: 0x, 0o, 0b (either case) or none *)
  let '(pre, hex, l1) :=
    match l with
    | z :: l1 =>
      if c_rune z =? 48 then
        match l1 with
        | c :: l2 =>
          let r := c_rune c in
          if (r =? 120) || (r =? 88) then ([z; c], true, l2)
          else if (r =? 111) || (r =? 79) || (r =? 98) || (r =? 66) then ([z; c], false, l2)
          else ([z], false, l1)
        | [] => ([z], false, l1)
        end
      else ([], false, l)
    | [] => ([], false, [])
    end in
  let (ds, l2) := span (is_dig hex) l1 in
  match l2 with
  | d :: l3 =>
    if c_rune d =? 46 then
      let (f, l4) := scan_frac hex l3 in (GFloat, pre ++ ds ++ d :: f, l4)
    else
      match scan_exponent l2 with
      | (isf, e, l4) => (if isf then GFloat else GInt, pre ++ ds ++ e, l4)
      end
  | [] => (GInt, pre ++ ds, [])
  end.

(** text/scanner scanEscape: characters consumed after a backslash inside a
    string besides the backslash itself; digit escapes consume characters the
    main loop would consume anyway. *)
Definition simple_escape (r : Z) : bool :=
  (r =? 97) || (r =? 98) || (r =? 102) || (r =? 110) || (r =? 114) || (r =? 116)
  || (r =? 118) || (r =? 92) || (r =? 34).

(** text/scanner scanString after the opening quote, including the closing
    character (closing quote, or the newline of an unterminated string, which
    Scan's trailing [ch = s.next()] consumes too).  [esc] = the previous
    character was an unprocessed backslash. *)
Fixpoint scan_string (esc : bool) (l : list chr) : list chr * list chr :=
  match l with
  | [] => ([], [])
  | c :: l' =>
    let r := c_rune c in
    if esc && simple_escape r then
      let (a, b) := scan_string false l' in (c :: a, b)
    else if (r =? 34) || (r =? 10) then ([c], l')
    else let (a, b) := scan_string (r =? 92) l' in (c :: a, b)
  end.

(** text/scanner Scan.  [ws] tells whether the whitespace set is active.
    Result: token kind, skipped whitespace, consumed characters (their bytes
    are TokenText), remaining characters. *)
Definition gscan (ws : bool) (l0 : list chr) : gkind * list chr * list chr * list chr :=
  let (sk, l) := if ws then span is_ws l0 else ([], l0) in
  match l with
  | [] => (GEOF, sk, [], [])
  | c :: l' =>
    let r := c_rune c in
    if is_letter r then
      let (a, b) := span is_letter l' in (GIdent, sk, c :: a, b)
    else if is_decimal r then
      match scan_number l with (k, a, b) => (k, sk, a, b) end
    else if r =? 34 then
      let (a, b) := scan_string false l' in (GString, sk, c :: a, b)
    else if r =? 46 then
      match l' with
      | d :: _ =>
        if is_decimal (c_rune d)
        then let (a, b) := scan_frac false l' in (GFloat, sk, c :: a, b)
        else (GRune r, sk, [c], l')
      | [] => (GRune r, sk, [c], l')
      end
    else (GRune r, sk, [c], l')
  end.

End WithLetters.
