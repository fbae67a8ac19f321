(** Specification for the sizes of typeset expressions in float64: the measurements
    of a float64 font as rational numbers, all at most [B]; expressions without
    delimiters resized to fit. *)
From Coq Require Import ZArith String Ascii List Bool Reals QArith Qcanon Qreals.
From Flocq Require Import Core.Core IEEE754.BinarySingleNaN IEEE754.PrimFloat.
From Coq Require Import Floats.
From Verif Require Import Utf8 Token Ast Arith Exact Box GeomSpec ReadSpec SizeSpec Float64Facts.
Import ListNotations.
Local Open Scope string_scope.
Local Open Scope list_scope.

Definition real (q : Qc) : R := Q2R (this q).
(** The number [x] is [q], not larger than [B], up to B / 2^46. *)
Definition reads (B : R) (x : float) (q : Qc) : Prop :=
  finite x /\ (Rabs (R_of x - real q) <= B / 2 ^ 46)%R /\ (Rabs (real q) <= B)%R.

(** A float64 backend whose answers, for fonts of the size [fsize] at the resolution
    [fdpi], are the measurements [M] up to rounding.  All of them are at most [B]; so are
    the numbers given to \hspace, also times one em, and size times resolution.  Advances
    are correct to (1 + advance) / 2^50, and lines do not have a negative thickness. *)
Definition measured64 {S : Type} (B : R) (M : measures) (size dpi : Qc) (fsize fdpi : float)
    (be : @backend float64 S) (parse_float : string -> option float) : Prop :=
  let ex (f : @Box.font float64) : SizeSpec.font := mk_font (A := exact) (f_name f) (f_type f) (Fin size) in
  (finite fsize /\ R_of fsize = real size) /\ (finite fdpi /\ R_of fdpi = real dpi) /\ (Rabs (real (size * dpi)) <= B)%R /\
  (forall sym f m s x s', f_size f = fsize -> be_metrics be sym f fdpi m s = LOk (x, s') ->
     reads B (m_adv x) (adv M sym (ex f) m) /\
     (Rabs (R_of (m_adv x) - real (adv M sym (ex f) m)) <= (1 + Rabs (real (adv M sym (ex f) m))) / 2 ^ 50)%R /\ reads B (m_iceberg x) (up M sym (ex f) m) /\
     reads B (m_height x) (up M sym (ex f) m + down M sym (ex f) m) /\ (exists w, reads B (m_width x) w) /\
     exists t b, reads B (m_ymax x) t /\ reads B (m_ymin x) b /\ mid M sym (ex f) m = ((t + b) / (1 + 1))%Qc) /\
  (forall f1 s1 f2 s2 s x s', f_size f1 = fsize -> f_size f2 = fsize -> be_kern be f1 s1 f2 s2 fdpi s = LOk (x, s') ->
     reads B x (pair M (ex f1) s1 (ex f2) s2)) /\
  (forall f s x s', f_size f = fsize -> be_underline be f fdpi s = LOk (x, s') -> 
     reads B x (line M (ex f)) /\ (0 <= R_of x)%R /\ (0 <= line M (ex f))%Qc) /\
  (forall v x, parse_float v = Some x -> 
     finite x /\ R_of x = real (number M v) /\ (Rabs (real (number M v)) <= B)%R /\ (Rabs (real (em M size * number M v)) <= B)%R).

(** No \binom and no \sqrt. *)
Fixpoint unresized (n : node) : Prop :=
  match n with
  | NMacro nm l =>
    match nm with Some (_, name) => name <> "\binom" /\ name <> "\sqrt" | None => True end /\
    fold_right (fun x p => unresized x /\ p) True l
  | NMath _ _ l _ | NList l | NArg _ l _ | NOptArg _ l _ => fold_right (fun x p => unresized x /\ p) True l
  | NSub _ x | NSup _ x => unresized x
  | _ => True
  end.

(** The dimensions of [t] are finite and within [e] of those of [x]. *)
Definition near (e : R) (t : @Box.tnode float64) (x : ext) : Prop :=
  (finite (t_width t) /\ (Rabs (R_of (t_width t) - real (x_w x)) <= e)%R) /\
  (finite (t_height t) /\ (Rabs (R_of (t_height t) - real (x_h x)) <= e)%R) /\
  (finite (t_depth t) /\ (Rabs (R_of (t_depth t) - real (x_d x)) <= e)%R).
