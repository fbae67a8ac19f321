(** Model of mtex/symbols/gen-symbols.go, the program that writes symbols_gen.go.
    Simplifications: writes to the created file succeed (fmt.Fprintf's errors are
    ignored by the program, lines 75-100); messages on stderr are not modelled. *)
From Coq Require Import ZArith String Ascii List Bool.
From Verif Require Import Utf8 Ast Quote.
Import ListNotations.
Local Open Scope string_scope.
Local Open Scope list_scope.
Local Open Scope Z_scope.

Definition nl : string := String (ascii_of_nat 10) "".
Definition tab : string := String (ascii_of_nat 9) "".
Definition scat (l : list string) : string := fold_right append "" l.

(** gen-symbols.go:29-40 the sets asked for, as (Python name, Go name) *)
Definition wanted : list (string * string) := [
  ("_binary_operators", "BinaryOperators"); ("_relation_symbols", "RelationSymbols");
  ("_arrow_symbols", "ArrowSymbols"); ("_punctuation_symbols", "PunctuationSymbols");
  ("_overunder_symbols", "OverUnderSymbols"); ("_overunder_functions", "OverUnderFunctions");
  ("_dropsub_symbols", "DropSubSymbols"); ("_fontnames", "FontNames");
  ("_function_names", "FunctionNames"); ("_ambi_delim", "AmbiDelim");
  ("_left_delim", "LeftDelim"); ("_right_delim", "RightDelim")].

(** gen-symbols.go:49-52 the fields of sym, 55-56 json.Encoder.Encode (a newline
    at the end); the names need no escapes *)
Definition json_sym (s : string * string) : string :=
  scat ["{""py"":"""; fst s; """,""go"":"""; snd s; """}"].
Fixpoint json_list (l : list string) : string :=
  match l with [] => "" | [x] => x | x :: l' => scat [x; ","; json_list l'] end.
Definition json_syms (l : list (string * string)) : string := scat ["["; json_list (map json_sym l); "]"; nl].

(** What the Python process does (gen-symbols.go:61-74): it fails, or its output is
    not the JSON of a map of lists of strings, or it is.  A Go map: at most one
    entry for each key, ranged over in any order. *)
Inductive answer : Type := Failed | Garbage | Reports (m : list (string * list string)).

(** sort.Strings (standard library) *)
Fixpoint insert (k : string) (l : list string) : list string :=
  match l with
  | [] => [k]
  | x :: l' => if String.leb k x then k :: l else x :: insert k l'
  end.
Definition sort_strings (l : list string) : list string := fold_right insert [] l.

(** out[k]: nil for an absent key *)
Fixpoint lookup (k : string) (m : list (string * list string)) : list string :=
  match m with [] => [] | (k', v) :: m' => if String.eqb k k' then v else lookup k m' end.

(** gen-symbols.go:88-98 one set; %q is strconv.Quote (Quote.v) *)
Definition set_text (first : bool) (k : string) (v : list string) : string :=
  scat [if first then "" else nl; tab; k; " = NewSet("; nl;
        scat (map (fun s => scat [tab; tab; go_quote s; ","; nl]) v); tab; ")"; nl].
Fixpoint sets_text (first : bool) (ks : list string) (m : list (string * list string)) : string :=
  match ks with [] => "" | k :: ks' => append (set_text first k (lookup k m)) (sets_text false ks' m) end.

(** gen-symbols.go:75-101: the text written for a map whose keys are ranged over in
    the order [keys] *)
Definition file_text (keys : list string) (m : list (string * list string)) : string :=
  scat ["// Autogenerated. DO NOT EDIT."; nl; nl; "package symbols"; nl; nl; "var ("; nl;
        sets_text true (sort_strings keys) m; ")"; nl].

(** gen-symbols.go:54-103 gen: the text written, and whether it returned nil.
    [range] is the iteration order of the map. *)
Definition gen (range : list (string * list string) -> list string) (python : string -> answer) (syms : list (string * string)) : string * bool :=
  match python (json_syms syms) with
  | Failed | Garbage => ("", false)
  | Reports m => (file_text (range m) m, true)
  end.

(** gen-symbols.go:22-47 main: the exit status and the contents of symbols_gen.go
    afterwards ([old] before; os.Create truncates).  The result of gen is
    ignored (line 29).  A failing Close exits with status 1 after the file has been
    written. *)
Definition main (range : list (string * list string) -> list string) (python : string -> answer)
    (create_ok close_ok : bool) (old : option string) : Z * option string :=
  if create_ok then
    let '(text, _) := gen range python wanted in
    (if close_ok then 0 else 1, Some text)
  else (1, old).
