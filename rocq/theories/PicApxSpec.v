(** Specification for pictures in float64: the drawing calls follow a figure
    (PicSpec.v) with an error of at most [e] in every coordinate; where space is
    distributed in whole pixels, up to half a pixel more. *)
From Coq Require Import ZArith String Ascii List Bool Reals QArith Qcanon Qreals.
From Flocq Require Import Core.Core IEEE754.BinarySingleNaN IEEE754.PrimFloat.
From Coq Require Import Floats.
From Verif Require Import Utf8 Token Ast Arith Exact Box Ship GeomSpec ReadSpec SizeSpec Float64Facts ApxSpec PicSpec.
Import ListNotations.
Local Open Scope string_scope.
Local Open Scope list_scope.
Local Open Scope R_scope.

(** The float64 number [x] is [q] up to [e]. *)
Definition about (e : R) (x : float) (q : R) : Prop := finite x /\ Rabs (R_of x - q) <= e.
(** Numbers beyond 10^9 are cut. *)
Definition cut (z : R) : R := Rmax (- 1000000000) (Rmin 1000000000 z).

(** [calls] draw the figure [f] at scale [k] with its reference point at ([x], [y]):
    - a glyph: one call for this glyph at ([x], [y]), the font having the size of the
      figure times [k];
    - a rectangle: one call with its corners, but if it is at most [e] thick it may be
      missing;
    - a moved figure is drawn at the place it is moved to; slides and drops are
      rounded to whole pixels. *)
Fixpoint drawn (e : R) (dpi : float) (k x y : R) (f : figure) (calls : list (@event float64)) : Prop :=
  match f with
  | Blank => calls = []
  | Join f g => exists c1 c2, calls = c1 ++ c2 /\ drawn e dpi k x y f c1 /\ drawn e dpi k x y g c2
  | Mark s ft => exists X Y F, calls = [EGlyph (A := float64) X Y F s dpi] /\ about e X x /\ about e Y y /\
      f_name F = f_name ft /\ f_type F = f_type ft /\ exists z, f_size ft = Fin z /\ about e (f_size F) (k * real z)
  | Stroke w h =>
      (calls = [] /\ k * real h <= e) \/
      exists X1 Y1 X2 Y2, calls = [ERect (A := float64) X1 Y1 X2 Y2] /\ about e X1 x /\ about e Y1 y /\
        about e X2 (x + k * real w) /\ about e Y2 (y + k * real h)
  | Move dx dy f => drawn e dpi k (x + k * real dx) (y + k * real dy) f calls
  | Slide d f => exists dx, Rabs (dx - cut (k * real d)) <= 1 / 2 + e /\ drawn e dpi k (x + dx) y f calls
  | Drop d f => exists dy, Rabs (dy - cut (k * real d)) <= 1 / 2 + e /\ drawn e dpi k x (y + dy) f calls
  | Small f => drawn e dpi (k * real (Q2Qc (7 # 10))) x y f calls
  end.

(** A drawing call stays between the heights [a] (above) and [b] (below) up to [e]:
    the glyph of a font whose size is given up to [e], or a line. *)
Definition stays64 (M : measures) (e a b : R) (c : @event float64) : Prop :=
  match c with
  | EGlyph _ Y F s _ => exists ft z, f_name ft = f_name F /\ f_type ft = f_type F /\ f_size ft = Fin z /\ about e (f_size F) (real z) /\
      finite Y /\ a - e <= R_of Y - real (up M s ft true) /\ R_of Y + real (down M s ft true) <= b + e
  | ERect _ Y1 _ Y2 => finite Y1 /\ finite Y2 /\ a - e <= R_of Y1 /\ R_of Y2 <= b + e
  end.

(** How deeply fractions and overlines are nested. *)
Fixpoint levels (n : node) : nat :=
  let most := fix most l := match l with [] => O | x :: l' => Nat.max (levels x) (most l') end in
  match n with
  | NList l | NMath _ _ l _ | NArg _ l _ | NOptArg _ l _ | NMacro None l => most l
  | NMacro (Some (_, name)) l => if one_of ["\frac"; "\dfrac"; "\tfrac"; "\overline"] name then S (most l) else most l
  | _ => O
  end.
Definition levels_of (l : list node) : nat := fold_right Nat.max O (map levels l).
