(** What an expression shows: the glyphs and bars a reader sees, in order, as a
    function of the syntax tree alone. *)
From Coq Require Import ZArith String Ascii List Bool.
From Verif Require Import Utf8 Ast SetTable Parser Arith Box.
Import ListNotations.
Local Open Scope string_scope.
Local Open Scope list_scope.
Local Open Scope Z_scope.

(** [Letter sym typ k]: the glyph of the symbol or macro [sym] in the face [typ]
    ("rm" upright, "it" italic), [k] times shrunk.  [Delim]: a parenthesis or
    radical sign, whose size depends on what it encloses.  [Bar]: a fraction bar,
    the line of a radical or an overline; [Bar false] is the bar of a binomial,
    which has no thickness and is not seen. *)
Inductive mark : Type :=
  | Letter (sym typ : string) (k : nat)
  | Delim (sym typ : string)
  | Bar (thick : bool).

(** Commands that only leave a space. *)
Definition spacing_names : list string :=
  ["\,"; "\thinspace"; "\/"; "\>"; "\:"; "\;"; "\ "; "~"; "\enspace"; "\quad"; "\qquad"; "\!"].
Definition one_of (l : list string) (s : string) : bool := existsb (String.eqb s) l.

(** The characters of a text, each as a string. *)
Definition letters (s : string) : list string := map (fun c => encode_rune (c_rune c)) (chars s).

(** [reading inner math typ k n]: what [n] shows.  [inner] is false directly inside
    $...$, where a brace group shows nothing. *)
Fixpoint reading (inner math : bool) (typ : string) (k : nat) (n : node) : list mark :=
  let text t s := map (fun x => Letter x t k) (letters s) in
  let args d l := flat_map (reading true math typ (k + d)) l in
  match n with
  | NList l => if inner then flat_map (reading true math typ k) l else []
  | NSym _ s => if math && one_of spacing_names s then [] else [Letter s typ k]
  | NWord _ s | NLit _ s => text typ s
  | NMath _ _ l _ => flat_map (reading false true "it" k) l
  | NMacro (Some (_, name)) l =>
    if one_of ("\hspace" :: spacing_names) name then []
    else if one_of FunctionNames_list (sdrop 1 name) then text "rm" (sdrop 1 name)
    else if one_of ["\frac"; "\tfrac"] name then
      match l with NArg _ num _ :: NArg _ den _ :: _ => args 1%nat num ++ [Bar true] ++ args 1%nat den | _ => [] end
    else if String.eqb name "\dfrac" then
      match l with NArg _ num _ :: NArg _ den _ :: _ => args 0%nat num ++ [Bar true] ++ args 0%nat den | _ => [] end
    else if String.eqb name "\binom" then
      match l with
      | NArg _ num _ :: NArg _ den _ :: _ => [Delim "(" typ] ++ args 1%nat num ++ [Bar false] ++ args 1%nat den ++ [Delim ")" typ]
      | _ => [] end
    else if String.eqb name "\sqrt" then
      match l with
      | [NArg _ body _] => [Delim "\__sqrt__" typ; Bar true] ++ args 0%nat body
      | [NOptArg _ root _; NArg _ body _] => args 2%nat root ++ [Delim "\__sqrt__" typ; Bar true] ++ args 0%nat body
      | _ => [] end
    else if String.eqb name "\overline" then
      match l with NArg _ body _ :: _ => [Bar true] ++ args 0%nat body | _ => [] end
    else [Letter name typ k]
  | _ => []
  end.

Section Shown.
Context {A : arith}.
Notation F := (Arith.F A).

(** A size after [k] shrinkings by the factor 0.7. *)
Fixpoint shrunk (k : nat) (x : F) : F := match k with O => x | S k' => fmul A (shrunk k' x) (frat 7 10) end.

(** [shown size dpi m g]: [g] (font, symbol, resolution of a glyph, or None for a
    rule) is the mark [m] of an expression set at [size] and [dpi]. *)
Definition shown (size dpi : F) (m : mark) (g : option (@font A * string * F)) : Prop :=
  match m, g with
  | Letter sym typ k, Some (ft, s, d) => s = sym /\ d = dpi /\ ft = mk_font "default" typ (shrunk k size)
  | Delim sym typ, Some (ft, s, d) => s = sym /\ d = dpi /\ f_name ft = "default" /\ f_type ft = typ
  | Bar _, None => True
  | _, _ => False
  end.
End Shown.

Definition is_glyph (m : mark) : bool := match m with Bar _ => false | _ => true end.
Definition is_seen (m : mark) : bool := match m with Bar b => b | _ => true end.
