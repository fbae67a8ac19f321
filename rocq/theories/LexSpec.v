(** The lexical grammar of the sources ParseExpr reads: which stretches of text are
    one token, of which kind and with which text.  Characters are Unicode code
    points with the bytes they were decoded from. *)
From Coq Require Import ZArith String Ascii List Bool.
From Verif Require Import Utf8 Token.
Import ListNotations.
Local Open Scope Z_scope.

Section LexSpec.
(** Which characters beyond ASCII are letters (Unicode category L). *)
Variable U : Z -> bool.

(** ** Characters *)
Definition letter (r : Z) : Prop := 65 <= r <= 90 \/ 97 <= r <= 122 \/ (128 <= r /\ U r = true).
Definition digit (r : Z) : Prop := 48 <= r <= 57.
Definition hexdigit (r : Z) : Prop := digit r \/ 65 <= r <= 70 \/ 97 <= r <= 102.
(** digits and underscores *)
Definition figure (hex : bool) (r : Z) : Prop := (if hex then hexdigit r else digit r) \/ r = 95.
(** one of the characters of an ASCII string *)
Definition among (s : string) (r : Z) : Prop := exists a, In a (list_ascii_of_string s) /\ r = Z.of_nat (nat_of_ascii a).
Definition blank (r : Z) : Prop := r = 9 \/ r = 10 \/ r = 13.

Definition all (p : Z -> Prop) (l : list chr) : Prop := Forall (fun c => p (c_rune c)) l.
Definition begins (p : Z -> Prop) (l : list chr) : Prop := match l with [] => False | c :: _ => p (c_rune c) end.
(** [a], followed by [after], is as long as possible. *)
Definition longest (p : Z -> Prop) (a after : list chr) : Prop := all p a /\ ~ begins p after.

(** ** Words, numbers, quoted strings *)
(** In all of these, [a] is the text and [after] is what follows it. *)
Definition word (a after : list chr) : Prop := a <> [] /\ longest letter a after.

Inductive exponent : list chr -> list chr -> Prop :=
  | no_exponent after : ~ begins (among "eEpP") after -> exponent [] after
  | an_exponent c sg ds after :
      among "eEpP" (c_rune c) ->
      (sg = [] /\ ~ begins (among "+-") (ds ++ after)) \/ (exists d, sg = [d] /\ among "+-" (c_rune d)) ->
      longest (figure false) ds after -> exponent (c :: sg ++ ds) after.
(** The base prefix of a number: 0x, 0b, 0o or nothing. *)
Inductive base : bool -> list chr -> list chr -> Prop :=
  | base_ten rest : begins digit rest ->
      (forall z c r, rest = z :: c :: r -> c_rune z = 48 -> ~ among "xXoObB" (c_rune c)) -> base false [] rest
  | base_hex z x rest : c_rune z = 48 -> among "xX" (c_rune x) -> base true [z; x] rest
  | base_other z b rest : c_rune z = 48 -> among "oObB" (c_rune b) -> base false [z; b] rest.
Inductive number : list chr -> list chr -> Prop :=
  | num_int hex pre ds e after :
      base hex pre (ds ++ e ++ after) -> longest (figure hex) ds (e ++ after) -> ~ begins (eq 46) (e ++ after) ->
      exponent e after -> number (pre ++ ds ++ e) after
  | num_point hex pre ds d fs e after : c_rune d = 46 ->
      base hex pre (ds ++ d :: fs ++ e ++ after) -> all (figure hex) ds -> longest (figure hex) fs (e ++ after) ->
      exponent e after -> number (pre ++ ds ++ d :: fs ++ e) after
  | num_leading_point d fs e after : c_rune d = 46 ->
      begins digit fs -> longest (figure false) fs (e ++ after) -> exponent e after -> number (d :: fs ++ e) after.

(** What follows an opening double quote, up to and including the closing quote
    or, if there is none, the end of the line or of the input.  A backslash
    protects the next character if that is one of a b f n r t v, a backslash or a
    quote. *)
Inductive quoted : list chr -> list chr -> Prop :=
  | q_end : quoted [] []
  | q_close c after : c_rune c = 34 \/ c_rune c = 10 -> quoted [c] after
  | q_escape b c w after : c_rune b = 92 -> among "abfnrtv\""" (c_rune c) -> quoted w after -> quoted (b :: c :: w) after
  | q_backslash b w after : c_rune b = 92 -> ~ begins (among "abfnrtv\""") (w ++ after) -> quoted w after -> quoted (b :: w) after
  | q_other c w after : c_rune c <> 34 -> c_rune c <> 10 -> c_rune c <> 92 -> quoted w after -> quoted (c :: w) after.

(** ** Items: a word, a number, a quoted string or one other character *)
Inductive shape : Type := SWord | SNumber | SQuoted | SChar (r : Z).
Inductive item : shape -> list chr -> list chr -> Prop :=
  | item_word a after : word a after -> item SWord a after
  | item_number a after : number a after -> item SNumber a after
  | item_quoted q a after : c_rune q = 34 -> quoted a after -> item SQuoted (q :: a) after
  | item_char c after : ~ letter (c_rune c) -> ~ digit (c_rune c) -> c_rune c <> 34 ->
      (c_rune c = 46 -> ~ begins digit after) -> item (SChar (c_rune c)) [c] after.

(** What follows a percent sign, up to and including the end of the line outside
    quotes, and its text: all but carriage returns. *)
Inductive comment : list chr -> list chr -> string -> Prop :=
  | com_end : comment [] [] ""
  | com_line c after : c_rune c = 10 -> comment [c] after ""
  | com_return c w after txt : c_rune c = 13 -> comment w after txt -> comment (c :: w) after txt
  | com_item k a w after txt : item k a (w ++ after) -> k <> SChar 10 -> k <> SChar 13 ->
      comment w after txt -> comment (a ++ w) after (append (raw_of a) txt).

(** ** Tokens *)
Definition brackets : list (string * kind) :=
  [("[", KLbrack); ("]", KRbrack); ("{", KLbrace); ("}", KRbrace); ("(", KLparen); (")", KRparen)]%string.
Inductive lexical : kind -> string -> list chr -> list chr -> Prop :=
  | tok_word a after : item SWord a after -> lexical KWord (raw_of a) a after
  | tok_number a after : item SNumber a after -> lexical KNumber (raw_of a) a after
  | tok_quoted a after : item SQuoted a after -> lexical KOther (raw_of a) a after
  | tok_space c after : c_rune c = 32 -> lexical KSpace " " [c] after
  | tok_backslash_space b c after : c_rune b = 92 -> c_rune c = 32 -> lexical KSpace "\ " [b; c] after
  | tok_macro b sk k a after : c_rune b = 92 -> all blank sk -> ~ begins blank a -> item k a after ->
      ~ begins (eq 32) (sk ++ a) -> lexical KMacro (append "\" (raw_of a)) (b :: sk ++ a) after
  | tok_macro_end b sk : c_rune b = 92 -> all blank sk -> lexical KMacro "\" (b :: sk) []
  | tok_comment p w after txt : c_rune p = 37 -> comment w after txt -> lexical KComment (append "%" txt) (p :: w) after
  | tok_symbol c after : among "$_=<>^/*-+!?':,;." (c_rune c) -> (c_rune c = 46 -> ~ begins digit after) ->
      lexical KSymbol (c_raw c) [c] after
  | tok_bracket s k c after : In (s, k) brackets -> among s (c_rune c) -> lexical k (c_raw c) [c] after.

(** From byte offset [o], the text splits into the tokens [ts] and the rest; before
    each token only TAB, LF and CR. *)
Inductive lexed : Z -> list chr -> list token -> list chr -> Prop :=
  | lexed_none o l : lexed o l [] l
  | lexed_token o sk k txt a after ts rest : all blank sk -> lexical k txt a after ->
      lexed (o + zlen (raw_of sk) + zlen (raw_of a)) after ts rest ->
      lexed o (sk ++ a ++ after) (mk_tok k (o + zlen (raw_of sk)) txt :: ts) rest.
(** A byte-order mark (U+FEFF) at the beginning does not count. *)
Definition splits (x : string) (ts : list token) (rest : list chr) : Prop :=
  (exists c l, chars x = c :: l /\ c_rune c = 65279 /\ lexed (zlen (c_raw c)) l ts rest) \/
  (~ begins (eq 65279) (chars x) /\ lexed 0 (chars x) ts rest).
(** The whole source is tokens. *)
Definition lexes_to (x : string) (ts : list token) : Prop := exists rest, splits x ts rest /\ all blank rest.
(** A character no token begins with. *)
Definition foreign (r : Z) : Prop :=
  ~ letter r /\ ~ digit r /\ ~ blank r /\ ~ among " $_=<>^/*-+!?':,;.[]{}()\%""" r.
(** After some tokens comes a foreign character. *)
Definition refused (x : string) (r : Z) : Prop :=
  exists ts sk c after, splits x ts (sk ++ c :: after) /\ all blank sk /\ foreign (c_rune c) /\ r = c_rune c.
End LexSpec.
