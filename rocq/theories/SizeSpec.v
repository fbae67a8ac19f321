(** The size of a typeset expression (width, height above and depth below the
    baseline), as a function of the syntax tree and of the measurements of single
    glyphs.  Exact arithmetic.  No boxes, no glue, no packing here. *)
From Coq Require Import ZArith String Ascii List Bool QArith Qcanon.
From Verif Require Import Utf8 Token Ast SetTable Arith Exact Box GeomSpec ReadSpec.
Import ListNotations.
Local Open Scope string_scope.
Local Open Scope list_scope.
Local Open Scope Qc_scope.

Record ext : Type := mk_ext { x_w : Qc; x_h : Qc; x_d : Qc }.
Definition scale (k : Qc) (e : ext) : ext := mk_ext (k * x_w e) (k * x_h e) (k * x_d e).
Definition gap (w : Qc) : ext := mk_ext w 0 0.
Definition qmin (a b : Qc) : Qc := if qltb a b then a else b.
Definition font : Type := @Box.font exact.

(** What is measured: a glyph's advance, its extent above and below the baseline,
    the height of its middle; the kerning of a pair; the thickness of lines; the
    value of a number. *)
Record measures : Type := mk_measures {
  adv : string -> font -> bool -> Qc;
  up : string -> font -> bool -> Qc;
  down : string -> font -> bool -> Qc;
  mid : string -> font -> bool -> Qc;
  pair : font -> string -> font -> string -> Qc;
  line : font -> Qc;
  number : string -> Qc }.

(** A row of glyphs and solid boxes next to each other. *)
Inductive piece : Type := Glyph (sym : string) (ft : font) (math : bool) | Solid (e : ext).

Section Sizes.
Variable M : measures.

Definition tall (p : piece) : Qc := match p with Glyph s f m => up M s f m | Solid e => x_h e end.
Definition deep (p : piece) : Qc := match p with Glyph s f m => down M s f m | Solid e => x_d e end.
(** Every glyph takes its advance; two glyphs next to each other are kerned. *)
Fixpoint row_width (l : list piece) : Qc :=
  match l with
  | [] => 0
  | Solid e :: l' => x_w e + row_width l'
  | Glyph s f m :: l' =>
    adv M s f m + match l' with Glyph s' f' _ :: _ => pair M f s f' s' | _ => 0 end + row_width l'
  end.
(** The height of a row is that of its tallest piece, at least 0. *)
Definition row (l : list piece) : ext :=
  mk_ext (row_width l) (fold_left qmax (map tall l) 0) (fold_left qmax (map deep l) 0).

(** A delimiter made [H] high and [D] deep by choosing its font size.  (If the
    extents of its glyph are not proportional to the font size, it is still [D]
    deep, but not [H] high.) *)
Definition resize (k : Qc) (f : font) : font := mk_font (f_name f) (f_type f) (fmul exact (f_size f) (Fin k)).
Definition delimiter (c : string) (f : font) (H D : Qc) : ext :=
  let f' := resize ((H + D) / (up M c f true + down M c f true)) f in
  mk_ext (adv M c f' true) (qmax 0 (up M c f' true) - (D - down M c f' true)) (qmax 0 (down M c f' true) + (D - down M c f' true)).

(** Numerator [n] over denominator [d]: the bottom of the numerator is [th + r]
    above the axis, the top of the denominator 3 [th] below it; 2 [th] of space to
    the right. *)
Definition fraction (th r axis : Qc) (n d : ext) : ext :=
  row [Solid (mk_ext (qmax 0 (qmax (x_w n) (x_w d)))
                (axis + (th + r) + x_d n + x_h n) (x_d d + x_h d + (th + th + th) - axis));
       Solid (gap (th + th))].
Definition binomial (th axis : Qc) (f : font) (n d : ext) : ext :=
  let b := fraction th 0 axis n d in
  row [Solid (delimiter "(" f (x_h b) (x_d b)); Solid b; Solid (delimiter ")" f (x_h b) (x_d b))].
(** Three line thicknesses and [e] above the body. *)
Definition overline (th e : Qc) (b : ext) : ext :=
  row [Solid (mk_ext (qmax 0 (x_w b)) (x_h b + (th + th + th) + e) (x_d b))].
(** The check reaches 5 [th] above the body; the index starts at the height of 3/5
    of the check and overlaps its left half; without index there is a space of
    half a check instead. *)
Definition radical (th e : Qc) (f : font) (index : option ext) (b : ext) : ext :=
  let c := delimiter "\__sqrt__" f (x_h b + (th + th + th + th + th)) (x_d b) in
  let i := match index with Some i => i | None => gap (x_w c * Q2Qc (1 # 2)) end in
  let raise := x_h c * Q2Qc (3 # 5) in
  row [Solid (mk_ext (qmax 0 (x_w i)) (x_h i + raise) (x_d i - raise));
       Solid (gap (- (x_w c * Q2Qc (1 # 2))));
       Solid c;
       Solid (mk_ext (qmax 0 (x_w b + (th + th + th + th))) (x_h c + e) (qmin (x_d b) (x_d c)))].

(** ** Expressions *)
Variables (expr : string) (size dpi : Qc).
Definition face (typ : string) : font := mk_font "default" typ (Fin size).
(** One em, the advance of an italic m. *)
Definition em : Qc := adv M "m" (mk_font "it" "it" (Fin size)) true.
Definition em_over (n d : Z) : Qc := em * (Q2Qc (n # 1) / Q2Qc (d # 1)).
(** The clearance above bars. *)
Definition clearance : Qc := size * dpi / Q2Qc (1200 # 1).
Definition axis : Qc := mid M "=" (face "it") true.

Definition space_ems : list (string * (Z * Z)) := [
  ("\,", (16667, 100000)); ("\thinspace", (16667, 100000)); ("\/", (16667, 100000));
  ("\>", (22222, 100000)); ("\:", (22222, 100000)); ("\;", (27778, 100000));
  ("\ ", (33333, 100000)); ("~", (33333, 100000)); ("\enspace", (50000, 100000));
  ("\quad", (100000, 100000)); ("\qquad", (200000, 100000)); ("\!", (-16667, 100000))]%Z.
Definition space_of (name : string) : Qc :=
  match find (fun p => String.eqb name (fst p)) space_ems with Some (_, (n, d)) => em_over n d | None => 0 end.

(** The last byte before [pos] that is not a blank opens a group. *)
Definition after_opening (pos : Z) : bool :=
  match find (fun c => negb (Ascii.eqb c " ")) (rev (firstn (Z.to_nat pos) (list_ascii_of_string expr))) with
  | Some c => existsb (Ascii.eqb c) ["{"; "("; "["; "<"]%char
  | None => false
  end.
(** [q] bytes after [pos] is the first point; the bytes of the whole expression at
    [q - 1] and [q + 1] are digits. *)
Definition digit (o : option ascii) : bool := match o with Some a => in_range 48 57 (byte a) | None => false end.
Definition decimal_point (pos : Z) : bool :=
  let l := list_ascii_of_string expr in
  let fix scan (k : nat) (t : list ascii) : option nat :=
    match t with [] => None | a :: t' => if Ascii.eqb a "." then Some k else scan (S k) t' end in
  match scan O (skipn (Z.to_nat pos) l) with
  | Some (S q) => digit (nth_error l q) && digit (nth_error l (S (S q)))
  | _ => false
  end.

(** A symbol: operators, relations and arrows have 1/5 em on both sides, unless a
    binary operator follows an opening delimiter; a point is followed by 1/5 em,
    unless it is a decimal point. *)
Definition symbol (math : bool) (typ s : string) (pos : Z) : list piece :=
  let g := Glyph s (face typ) math in
  let thin := Solid (gap (em_over 1 5)) in
  if one_of (BinaryOperators_list ++ RelationSymbols_list ++ ArrowSymbols_list) s then
    if one_of BinaryOperators_list s && after_opening pos then [g] else [Solid (row [thin; g; thin])]
  else if String.eqb s "." then
    if decimal_point pos then [g] else [Solid (row [g; thin])]
  else [g].

(** The letters of a text. *)
Definition letter (math : bool) (typ x : string) : piece := Glyph x (face typ) math.

(** [pieces inner math typ n]: what [n] contributes to the row it stands in. *)
Fixpoint pieces (inner math : bool) (typ : string) (n : node) : list piece :=
  let arg l := row (flat_map (pieces true math typ) l) in
  let th := line M (face typ) in
  let small := scale (Q2Qc (7 # 10)) in
  match n with
  | NList l => if inner then flat_map (pieces true math typ) l else []
  | NSym p s =>
    if math then if one_of spacing_names s then [Solid (gap (space_of s))] else symbol math typ s p
    else [letter math typ s]
  | NWord _ s => [Solid (row (map (letter math typ) (letters s)))]
  | NLit _ s => flat_map (fun x => symbol math typ x 0) (letters s)
  | NMath _ _ l _ => flat_map (pieces false true "it") l
  | NMacro (Some (p, name)) l =>
    if one_of spacing_names name then [Solid (gap (space_of name))]
    else if String.eqb name "\hspace" then
      match l with NArg _ (NLit _ v :: _) _ :: _ => [Solid (gap (em * number M v))] | _ => [] end
    else if one_of FunctionNames_list (sdrop 1 name) then
      [Solid (row (map (letter math "rm") (letters (sdrop 1 name))))]
    else if one_of ["\frac"; "\tfrac"] name then
      match l with
      | NArg _ n _ :: NArg _ d _ :: _ => [Solid (fraction th th axis (small (arg n)) (small (arg d)))]
      | _ => [] end
    else if String.eqb name "\dfrac" then
      match l with
      | NArg _ n _ :: NArg _ d _ :: _ => [Solid (fraction th th axis (arg n) (arg d))]
      | _ => [] end
    else if String.eqb name "\binom" then
      match l with
      | NArg _ n _ :: NArg _ d _ :: _ => [Solid (binomial th axis (face typ) (small (arg n)) (small (arg d)))]
      | _ => [] end
    else if String.eqb name "\sqrt" then
      match l with
      | [NArg _ b _] => [Solid (radical th clearance (face typ) None (arg b))]
      | [NOptArg _ i _; NArg _ b _] => [Solid (radical th clearance (face typ) (Some (small (small (arg i)))) (arg b))]
      | _ => [] end
    else if String.eqb name "\overline" then
      match l with NArg _ b _ :: _ => [Solid (overline th clearance (arg b))] | _ => [] end
    else symbol math typ name p
  | _ => []
  end.

(** The size of the whole expression, which starts in text mode and upright. *)
Definition size_of_expression (l : list node) : ext := row (flat_map (pieces true false "rm") l).

(** A backend whose answers are the measurements [M], whenever it answers, for fonts
    of finite size. *)
Definition measured_by {S : Type} (be : @backend exact S) (parse_float : string -> option xq) : Prop :=
  (forall sym (f : font) z m s x s', f_size f = Fin z -> be_metrics be sym f (Fin dpi) m s = LOk (x, s') ->
     m_adv x = Fin (adv M sym f m) /\ m_iceberg x = Fin (up M sym f m) /\
     m_height x = Fin (up M sym f m + down M sym f m) /\ (exists w, m_width x = Fin w) /\
     exists t b, m_ymax x = Fin t /\ m_ymin x = Fin b /\ (t + b) / (1 + 1) = mid M sym f m) /\
  (forall f1 s1 f2 s2 s x s', be_kern be f1 s1 f2 s2 (Fin dpi) s = LOk (x, s') -> x = Fin (pair M f1 s1 f2 s2)) /\
  (forall f s x s', f_size f = Fin size -> be_underline be f (Fin dpi) s = LOk (x, s') -> x = Fin (line M f) /\ 0 <= line M f) /\
  (forall v x, parse_float v = Some x -> x = Fin (number M v)) /\
  (* delimiters are not flat *)
  (forall c f s x s', In c ["("; ")"; "\__sqrt__"] -> f_size f = Fin size -> be_metrics be c f (Fin dpi) true s = LOk (x, s') ->
     up M c f true + down M c f true <> 0).
End Sizes.
