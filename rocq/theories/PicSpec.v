(** What a typeset expression looks like: every glyph and every line of the drawing
    with its position, as a function of the syntax tree and of the measurements of
    single glyphs (SizeSpec.v).  Exact arithmetic, in pixels, y growing downwards.
    No boxes, no glue, no traversal here. *)
From Coq Require Import ZArith String Ascii List Bool QArith Qround Qcanon.
From Verif Require Import Utf8 Token Ast SetTable Arith Exact Box Ship GeomSpec ReadSpec SizeSpec.
Import ListNotations.
Local Open Scope string_scope.
Local Open Scope list_scope.
Local Open Scope Qc_scope.

(** ** Figures *)
(** A figure is put with its reference point (the left end of its baseline)
    somewhere and drawn at some scale.
    - [Mark]: a glyph;
    - [Stroke w h]: a black rectangle whose upper left corner is the reference
      point; nothing if it has no height;
    - [Move dx dy f]: [f] moved right and down;
    - [Slide d f], [Drop d f]: [f] moved right (down) by [d], rounded to whole
      pixels after scaling;
    - [Small f]: [f] at 7/10 of the size. *)
Inductive figure : Type :=
  | Blank
  | Join (f g : figure)
  | Mark (sym : string) (ft : font)
  | Stroke (w h : Qc)
  | Move (dx dy : Qc) (f : figure)
  | Slide (d : Qc) (f : figure)
  | Drop (d : Qc) (f : figure)
  | Small (f : figure).

(** The nearest whole number, halves away from zero, and at most 10^9. *)
Definition nearest (q : Qc) : Z :=
  if qltb q 0 then (- Qfloor (- q + (1 # 2))%Q)%Z else Qfloor (q + (1 # 2))%Q.
Definition snap (q : Qc) : Qc := Q2Qc (inject_Z (Z.max (-1000000000) (Z.min 1000000000 (nearest q)))).

(** The drawing calls of a figure at scale [k] with its reference point at
    ([x], [y]). *)
Fixpoint ink (dpi k x y : Qc) (f : figure) : list (@event exact) :=
  match f with
  | Blank => []
  | Join f g => ink dpi k x y f ++ ink dpi k x y g
  | Mark s ft => [EGlyph (A:=exact) (Fin x) (Fin y) (resize k ft) s (Fin dpi)]
  | Stroke w h => if qltb 0 h then [ERect (A:=exact) (Fin x) (Fin y) (Fin (x + k * w)) (Fin (y + k * h))] else []
  | Move dx dy f => ink dpi k (x + k * dx) (y + k * dy) f
  | Slide d f => ink dpi k (x + snap (k * d)) y f
  | Drop d f => ink dpi k x (y + snap (k * d)) f
  | Small f => ink dpi (k * Q2Qc (7 # 10)) x y f
  end.

(** ** Layout *)
(** A piece of a row and what it looks like. *)
Definition shape : Type := piece * figure.

Section Pictures.
Variable M : measures.

Definition mark (s : string) (ft : font) (math : bool) : shape := (Glyph s ft math, Mark s ft).
Definition space (w : Qc) : shape := (Solid (gap w), Blank).

(** How far the next piece is to the right. *)
Definition step (p : piece) (next : list shape) : Qc :=
  match p with
  | Solid e => x_w e
  | Glyph s f m => adv M s f m +
      match next with (Glyph s' f' _, _) :: _ => pair M f s f' s' | _ => 0 end
  end.
(** Pieces next to each other on one baseline, the first at [x]. *)
Fixpoint lay (x : Qc) (l : list shape) : figure :=
  match l with
  | [] => Blank
  | (p, f) :: l' => Join (Move x 0 f) (lay (x + step p l') l')
  end.
Definition framed (l : list shape) : shape := (Solid (row M (map fst l)), lay 0 l).

(** A box: its size and what it looks like. *)
Definition boxed : Type := ext * figure.
Definition box_of (l : list shape) : boxed := (row M (map fst l), lay 0 l).
Definition small (b : boxed) : boxed := (scale (Q2Qc (7 # 10)) (fst b), Small (snd b)).

(** A delimiter [H] high and [D] deep: its glyph, in the font size chosen for it,
    is moved down to reach [D] below the baseline. *)
Definition delim (c : string) (f : font) (H D : Qc) : shape :=
  let f' := resize ((H + D) / (up M c f true + down M c f true)) f in
  (Solid (delimiter M c f H D), Move 0 (D - down M c f' true) (Mark c f')).

(** Numerator above denominator, the narrower one centred; the line starts one
    thickness below the axis. *)
Definition frac_figure (th r axis : Qc) (n d : boxed) : figure :=
  let w := qmax (x_w (fst n)) (x_w (fst d)) in
  Join (Move 0 (- (axis + (th + r) + x_d (fst n))) (Slide ((w - x_w (fst n)) * Q2Qc (1 # 2)) (snd n)))
    (Join (Move 0 (th - axis) (Stroke (qmax 0 w) r))
       (Move 0 (th + th + th + x_h (fst d) - axis) (Slide ((w - x_w (fst d)) * Q2Qc (1 # 2)) (snd d)))).
Definition frac_shape (th r axis : Qc) (n d : boxed) : shape :=
  (Solid (fraction M th r axis (fst n) (fst d)), frac_figure th r axis n d).
Definition binom_shape (th axis : Qc) (f : font) (n d : boxed) : shape :=
  let b := fraction M th 0 axis (fst n) (fst d) in
  framed [delim "(" f (x_h b) (x_d b); frac_shape th 0 axis n d; delim ")" f (x_h b) (x_d b)].

(** A line over a body of size [b] in a box [H] high: the line starts one thickness
    [th] below the top; between it and the body there is the remaining space, in
    whole pixels; the body is [pad] to the right. *)
Definition lined (th pad w H : Qc) (b : boxed) : figure :=
  Join (Move 0 (th - H) (Stroke (qmax 0 w) th))
    (Move pad (th + x_h (fst b) - H) (Drop (qmax 0 (H - (th + x_h (fst b)))) (snd b))).
Definition over_shape (th e : Qc) (b : boxed) : shape :=
  (Solid (overline M th e (fst b)), lined th 0 (x_w (fst b)) (x_h (fst b) + (th + th + th) + e) b).
Definition root_shape (th e : Qc) (f : font) (index : option boxed) (b : boxed) : shape :=
  let H := x_h (fst b) + (th + th + th + th + th) in
  let c := delimiter M "\__sqrt__" f H (x_d (fst b)) in
  let i := match index with Some i => i | None => (gap (x_w c * Q2Qc (1 # 2)), Blank) end in
  let raise := x_h c * Q2Qc (3 # 5) in
  framed [(Solid (mk_ext (qmax 0 (x_w (fst i))) (x_h (fst i) + raise) (x_d (fst i) - raise)), Move 0 (- raise) (snd i));
          space (- (x_w c * Q2Qc (1 # 2)));
          delim "\__sqrt__" f H (x_d (fst b));
          (Solid (mk_ext (qmax 0 (x_w (fst b) + (th + th + th + th))) (x_h c + e) (qmin (x_d (fst b)) (x_d c))),
           lined th (th + th) (x_w (fst b) + (th + th + th + th)) (x_h c + e) b)].

(** ** Expressions *)
Variables (expr : string) (size dpi : Qc).
Notation face := (face size).

Definition symbol_shape (math : bool) (typ s : string) (pos : Z) : list shape :=
  let g := mark s (face typ) math in
  let thin := space (em_over M size 1 5) in
  if one_of (BinaryOperators_list ++ RelationSymbols_list ++ ArrowSymbols_list) s then
    if one_of BinaryOperators_list s && after_opening expr pos then [g] else [framed [thin; g; thin]]
  else if String.eqb s "." then
    if decimal_point expr pos then [g] else [framed [g; thin]]
  else [g].

Definition letter_shape (math : bool) (typ x : string) : shape := mark x (face typ) math.

Fixpoint shapes (inner math : bool) (typ : string) (n : node) : list shape :=
  let arg l := box_of (flat_map (shapes true math typ) l) in
  let th := line M (face typ) in
  let ax := axis M size in
  let cl := clearance size dpi in
  match n with
  | NList l => if inner then flat_map (shapes true math typ) l else []
  | NSym p s =>
    if math then if one_of spacing_names s then [space (space_of M size s)] else symbol_shape math typ s p
    else [letter_shape math typ s]
  | NWord _ s => [framed (map (letter_shape math typ) (letters s))]
  | NLit _ s => flat_map (fun x => symbol_shape math typ x 0) (letters s)
  | NMath _ _ l _ => flat_map (shapes false true "it") l
  | NMacro (Some (p, name)) l =>
    if one_of spacing_names name then [space (space_of M size name)]
    else if String.eqb name "\hspace" then
      match l with NArg _ (NLit _ v :: _) _ :: _ => [space (em M size * number M v)] | _ => [] end
    else if one_of FunctionNames_list (sdrop 1 name) then
      [framed (map (letter_shape math "rm") (letters (sdrop 1 name)))]
    else if one_of ["\frac"; "\tfrac"] name then
      match l with
      | NArg _ n _ :: NArg _ d _ :: _ => [frac_shape th th ax (small (arg n)) (small (arg d))]
      | _ => [] end
    else if String.eqb name "\dfrac" then
      match l with
      | NArg _ n _ :: NArg _ d _ :: _ => [frac_shape th th ax (arg n) (arg d)]
      | _ => [] end
    else if String.eqb name "\binom" then
      match l with
      | NArg _ n _ :: NArg _ d _ :: _ => [binom_shape th ax (face typ) (small (arg n)) (small (arg d))]
      | _ => [] end
    else if String.eqb name "\sqrt" then
      match l with
      | [NArg _ b _] => [root_shape th cl (face typ) None (arg b)]
      | [NOptArg _ i _; NArg _ b _] => [root_shape th cl (face typ) (Some (small (small (arg i)))) (arg b)]
      | _ => [] end
    else if String.eqb name "\overline" then
      match l with NArg _ b _ :: _ => [over_shape th cl (arg b)] | _ => [] end
    else symbol_shape math typ name p
  | _ => []
  end.

(** The whole expression. *)
Definition picture_of (l : list node) : figure := snd (box_of (flat_map (shapes true false "rm") l)).
End Pictures.

(** ** Room *)
(** A drawing call stays between the heights [a] (above) and [b] (below): a glyph
    reaches from [up] above to [down] below its baseline, a line from its upper to
    its lower side. *)
Definition stays (M : measures) (a b : Qc) (e : @event exact) : Prop :=
  match e with
  | EGlyph _ (Fin y) f c _ => a <= y - up M c f true /\ y + down M c f true <= b
  | ERect _ (Fin y1) _ (Fin y2) => a <= y1 /\ y2 <= b
  | _ => False
  end.
(** Fonts: the extents of a glyph grow with the font and do not depend on the mode,
    lines have a thickness and delimiters an extent. *)
Definition regular (M : measures) (size : Qc) : Prop :=
  (forall s f m, up M s f m = up M s f true /\ down M s f m = down M s f true) /\
  (forall s f z k, f_size f = Fin z -> 0 <= k ->
     up M s (resize k f) true = k * up M s f true /\ down M s (resize k f) true = k * down M s f true) /\
  (forall typ, In typ ["rm"; "it"] -> 0 <= line M (face size typ)) /\
  (forall c typ, In c ["("; ")"; "\__sqrt__"] -> In typ ["rm"; "it"] ->
     0 < up M c (face size typ) true + down M c (face size typ) true).
(** How many bars (\overline and \sqrt) are above each other. *)
Fixpoint bars (n : node) : nat :=
  let most := fix most l := match l with [] => O | x :: l' => Nat.max (bars x) (most l') end in
  match n with
  | NList l | NMath _ _ l _ | NArg _ l _ | NOptArg _ l _ | NMacro None l => most l
  | NMacro (Some (_, name)) l => if one_of ["\sqrt"; "\overline"] name then S (most l) else most l
  | _ => O
  end.
Definition bars_of (l : list node) : nat := fold_right Nat.max O (map bars l).
