(** Specification vocabulary for mtex: which parts of a syntax tree are typeset,
    and which constructs are refused.  No layout here. *)
From Coq Require Import ZArith String Ascii List Bool.
From Verif Require Import Utf8 Ast.
Import ListNotations.
Local Open Scope string_scope.
Local Open Scope list_scope.
Local Open Scope Z_scope.

(** The argument contents a macro typesets; the arguments of every other macro
    are ignored. *)
Inductive typeset_arg : string -> list node -> list node -> Prop :=
  | ta_num name a l b args :
      In name ["\frac"; "\dfrac"; "\tfrac"; "\binom"] -> typeset_arg name (NArg a l b :: args) l
  | ta_den name x a l b args :
      In name ["\frac"; "\dfrac"; "\tfrac"; "\binom"] -> typeset_arg name (x :: NArg a l b :: args) l
  | ta_root a l b args : typeset_arg "\sqrt" (NOptArg a l b :: args) l
  | ta_body1 a l b args : typeset_arg "\sqrt" (NArg a l b :: args) l
  | ta_body2 x a l b args : typeset_arg "\sqrt" (x :: NArg a l b :: args) l
  | ta_over a l b args : typeset_arg "\overline" (NArg a l b :: args) l.

(** [reach open m n m' y]: typesetting [n] in math mode ([m] = true) or text mode
    comes to [y], in mode [m'].  A brace group is typeset only if it is [open]:
    groups directly inside $...$ are not. *)
Inductive reach : bool -> bool -> node -> bool -> node -> Prop :=
  | r_self o m n : reach o m n m n
  | r_list m l x m' y : In x l -> reach true m x m' y -> reach true m (NList l) m' y
  | r_math o m d a l b x m' y : In x l -> reach false true x m' y -> reach o m (NMath d a l b) m' y
  | r_macro o m p name args l x m' y :
      typeset_arg name args l -> In x l -> reach true m x m' y ->
      reach o m (NMacro (Some (p, name)) args) m' y.

(** Symbols that cannot be typeset in math mode. *)
Definition bad_math_symbols : list string := ["/"; "!"; "?"; "'"; ","; ";"; "["; "]"].
Definition good_math_symbols : list string := ["+"; "-"; "*"; "="; "<"; ">"; ":"; "."; "("; ")"].

Section Refused.
  Variable is_float : string -> Prop.   (* accepted by strconv.ParseFloat *)

  (** Constructs mtex does not typeset but panics on. *)
  Inductive refused : bool -> node -> Prop :=
    | rf_sub m p n : refused m (NSub p n)
    | rf_sup m p n : refused m (NSup p n)
    | rf_sym p t : In t bad_math_symbols -> refused true (NSym p t)
    | rf_dot m p t args : In t ["\ldotp"; "\cdotp"] -> refused m (NMacro (Some (p, t)) args)
    | rf_hspace m p args :
        (forall a q v l b args', args = NArg a (NLit q v :: l) b :: args' -> ~ is_float v) ->
        refused m (NMacro (Some (p, "\hspace")) args).
End Refused.

(** A tree without the groups that are not typeset. *)
Fixpoint drop_groups (n : node) : node :=
  match n with
  | NMath d a l b =>
    NMath d a (flat_map (fun x => match x with NList _ => [] | _ => [drop_groups x] end) l) b
  | NList l => NList (map drop_groups l)
  | NMacro nm l => NMacro nm (map drop_groups l)
  | NArg a l b => NArg a (map drop_groups l) b
  | NOptArg a l b => NOptArg a (map drop_groups l) b
  | NSub p x => NSub p (drop_groups x)
  | NSup p x => NSup p (drop_groups x)
  | _ => n
  end.
