(** Specification for the sizes of formulas typeset with TrueType fonts in float64:
    the fonts measured with exact numbers, and bounds on their measurements. *)
From Coq Require Import ZArith String Ascii List Bool Reals QArith Qcanon Qreals.
From Flocq Require Import Core.Core IEEE754.BinarySingleNaN IEEE754.PrimFloat.
From Coq Require Import Floats.
From Verif Require Import Utf8 Token Ast Arith Exact Box GeomSpec ReadSpec SizeSpec Float64Facts ApxSpec Ttf TtfSpec PropFormula.
Import ListNotations.
Local Open Scope string_scope.
Local Open Scope list_scope.

Section Spec.
Context {Fnt : Type}.
(** The same fonts, in a world of exact numbers. *)
Definition on_paper (sf : @sfnt float64 Fnt) : @sfnt exact Fnt := {|
  sf_name := sf_name sf; sf_index := sf_index sf; sf_gname := sf_gname sf; sf_upem := sf_upem sf; sf_load := sf_load sf;
  sf_advance := sf_advance sf; sf_bounds := sf_bounds sf; sf_kern := sf_kern sf;
  sf_xheight := fun _ _ _ => None; uni_L := uni_L sf |}.
(** The numbers in fonts are 32-bit integers (fixed.Int26_6). *)
Definition int32_font (sf : @sfnt float64 Fnt) : Prop :=
  (forall f i p a, sf_advance sf f i p = Some a -> (Z.abs a <= 2 ^ 31)%Z) /\
  (forall f i p x0 y0 x1 y1, sf_bounds sf f i p = Some (x0, y0, x1, y1) ->
     (Z.abs x0 <= 2 ^ 31 /\ Z.abs y0 <= 2 ^ 31 /\ Z.abs x1 <= 2 ^ 31 /\ Z.abs y1 <= 2 ^ 31)%Z) /\
  (forall f i j p k, sf_kern sf f i j p = KernIs k -> (Z.abs k <= 2 ^ 31)%Z).

(** The measurements of the fonts at the size are at most [B], and so are size and
    resolution. *)
Definition within (B : R) (x : xq) : Prop := match x with Fin q => (Rabs (real q) <= B)%R | _ => True end.
Definition fonts_within (B : R) (sf : @sfnt float64 Fnt) (fnts : @fonts Fnt) (size dpi : Qc) : Prop :=
  let font nm ty : SizeSpec.font := mk_font (A := exact) nm ty (Fin size) in
  (forall sym nm ty m, fst (metrics_of (on_paper sf) fnts sym (font nm ty) (Fin dpi) true (new_ttf new_canvas)) = LOk m ->
     within B (m_adv m) /\ within B (m_height m) /\ within B (m_width m) /\ within B (m_xmin m) /\ within B (m_xmax m) /\
     within B (m_ymin m) /\ within B (m_ymax m)) /\
  (forall n1 t1 s1 n2 t2 s2 k, fst (kern (on_paper sf) fnts (font n1 t1) s1 (font n2 t2) s2 (Fin dpi) (new_ttf new_canvas)) = LOk k -> within B k) /\
  within B (Fin size) /\ within B (Fin dpi) /\ within B (Fin (size * dpi)).

(** The numbers read from \hspace: the same in both worlds, and they and their
    multiples of one em are at most [B]. *)
Definition numbers_within (B : R) (pf : string -> option float) (pq : string -> option xq) (one_em : Qc) : Prop :=
  forall v x, pf v = Some x -> exists q, pq v = Some (Fin q) /\ finite x /\ R_of x = real q /\ within B (Fin q) /\ within B (Fin (one_em * q)).

(** A float64 number that is the rational number [q]. *)
Definition is_number (x : float) (q : Qc) : Prop := finite x /\ R_of x = real q.

(** Calls for glyphs of one size at one resolution, in math mode. *)
Definition at_size (fsize fdpi : float) (r : @request float64) : Prop :=
  forall k m, In (k, m) (needs r) -> m = true /\ f_size (k_font k) = fsize /\ k_dpi k = fdpi.
End Spec.
