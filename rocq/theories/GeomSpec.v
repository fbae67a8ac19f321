(** Where the parts of fractions, overlines and radicals are drawn: the geometry,
    in exact arithmetic, in units of pixels, y growing downwards. *)
From Coq Require Import ZArith String List QArith Qcanon.
From Verif Require Import Arith Exact Box Ship ShipSpec.
Import ListNotations.
Local Open Scope list_scope.
Local Open Scope Z_scope.

Definition qmax (a b : Qc) : Qc := if qltb b a then a else b.

(** [t] is a horizontal list that is not shifted, of width [w], height [h] and
    depth [d]. *)
Definition hbox_of (t : @Box.tnode exact) (w h d : Qc) : Prop :=
  exists b gs l, t = TL KHList b (Fin 0) gs l /\ b_width b = Fin w /\ b_height b = Fin h /\ b_depth b = Fin d.
Definition size_of (t : @Box.tnode exact) (w h d : Qc) : Prop :=
  t_width t = Fin w /\ t_height t = Fin h /\ t_depth t = Fin d.

(** [off] is half of [d] up to the rounding of glue to whole pixels. *)
Definition about_half (off d : Qc) : Prop := (- (1 # 2) <= this off - this d * (1 # 2) <= 1 # 2)%Q.

(** Rules of height 0 are not drawn. *)
Definition bar (x y w h : xq) (r : Qc) : list (@Ship.event exact) := if qltb 0 r then [rect x y w h] else [].

(** A fraction with the numerator [num] of size (wn, hn, dn), the denominator
    [den] of size (wd, hd, dd), spacing unit [h], bar thickness [r] and math axis
    [axis] above the baseline: when [t] is put with its left edge at [x] and its
    baseline at [v],
    - the bottom of the numerator is [h + r] above the axis,
    - the bar is as wide as the wider of the two, starts [h] below the axis and is
      [r] thick,
    - the top of the denominator is [3 h] below the axis,
    - the narrower of the two is centred,
    and nothing else is drawn. *)
Definition fraction_drawn (num den : @Box.tnode exact) (wn dn wd hd h r axis : Qc) (t : @Box.tnode exact) : Prop :=
  exists offn offd : Qc,
    about_half offn (qmax wn wd - wn) /\ about_half offd (qmax wn wd - wd) /\
    forall (ox oy : xq) (x v : Qc),
      draws ox oy false (t_box t) t (Fin x) (Fin v) =
      draws ox oy false (t_box num) num (Fin (x + offn)) (Fin (v - axis - (h + r) - dn)) ++
      bar (xadd (Fin x) ox) (xadd (Fin (v - axis + h)) oy) (Fin (qmax 0 (qmax wn wd))) (Fin r) r ++
      draws ox oy false (t_box den) den (Fin (x + offd)) (Fin (v - axis + (h + h + h) + hd)).

(** The vertical error of glue, which is rounded to whole pixels. *)
Definition half_pixel (adj : Qc) : Prop := (- (1 # 2) <= this adj <= 1 # 2)%Q.

(** An overlined [body] of width [w] and height [h], bar thickness [t], extra
    clearance [e]: the top edge of the bar is [2 t + e] above the body, the bar is
    [t] thick; the body keeps its place, up to half a pixel vertically. *)
Definition overline_drawn (body : @Box.tnode exact) (w h t e : Qc) (tr : @Box.tnode exact) : Prop :=
  exists adj : Qc, half_pixel adj /\
    forall (ox oy : xq) (x v : Qc),
      draws ox oy false (t_box tr) tr (Fin x) (Fin v) =
      bar (xadd (Fin x) ox) (xadd (Fin (v - h - (t + t + e))) oy) (Fin (qmax 0 w)) (Fin t) t ++
      draws ox oy false (t_box body) body (Fin x) (Fin (v + adj)).

(** A radical with the index [root] of width [wr], the [check] of width [wc]
    shifted down by [sc] and reaching [hc] above the baseline, and the [body] of
    width [w]: the index is 3/5 [hc] above the baseline, the check overlaps it by
    half the width of the check, the top edge of the bar is [t] below the top of
    the check plus [e], the body is 2 [t] right of the check. *)
Definition radical_drawn (root body check : @Box.tnode exact) (wr w wc sc hc t e : Qc) (tr : @Box.tnode exact) : Prop :=
  exists adj : Qc, half_pixel adj /\
    forall (ox oy : xq) (x v : Qc),
      let left := (x + qmax 0 wr - wc * Q2Qc (1 # 2))%Qc in
      draws ox oy false (t_box tr) tr (Fin x) (Fin v) =
      draws ox oy false (t_box root) root (Fin x) (Fin (v - hc * Q2Qc (3 # 5))) ++
      draws ox oy false (t_box check) check (Fin left) (Fin (v + sc)) ++
      bar (xadd (Fin (left + wc)) ox) (xadd (Fin (v - (hc + e) + t)) oy) (Fin (qmax 0 (w + (t + t + t + t)))) (Fin t) t ++
      draws ox oy false (t_box body) body (Fin (left + wc + (t + t))) (Fin (v + adj)).
