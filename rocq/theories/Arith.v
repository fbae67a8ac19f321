(** Numbers of the layout engine.

    The Go code computes with float64.  The layout model is parametric in the
    arithmetic, so that theorems which only use the shape of the program hold for
    float64 bit for bit, while theorems stated "in exact arithmetic" use the
    extended reals.  Go's [int] is modelled by Z (no wrap-around). *)
From Coq Require Import ZArith Bool List String Ascii.
From Coq Require Import Floats.
Import ListNotations.
Local Open Scope Z_scope.

Record arith : Type := mk_arith {
  F : Type;
  fadd : F -> F -> F;
  fsub : F -> F -> F;
  fmul : F -> F -> F;
  fdiv : F -> F -> F;
  fopp : F -> F;
  fmax : F -> F -> F;      (* math.Max *)
  feqb : F -> F -> bool;   (* == *)
  fltb : F -> F -> bool;   (* < *)
  finf : F -> bool;        (* math.IsInf(x, 0) *)
  fpinf : F;               (* math.Inf(+1) *)
  fofZ : Z -> F;           (* float64(n), and integer constants *)
  fround : F -> Z;         (* int(math.Round(x)) *)
  fceil : F -> F           (* math.Ceil *)
}.

Declare Scope f_scope.
Delimit Scope f_scope with F.

Section Derived.
Context {A : arith}.
(** A decimal constant n/d of the source text, rounded once. *)
Definition frat (n d : Z) : F A := fdiv A (fofZ A n) (fofZ A d).
Definition f0 : F A := fofZ A 0.
Definition f1 : F A := fofZ A 1.
End Derived.

Notation "a + b" := (fadd _ a b) : f_scope.
Notation "a - b" := (fsub _ a b) : f_scope.
Notation "a * b" := (fmul _ a b) : f_scope.
Notation "a / b" := (fdiv _ a b) : f_scope.
Notation "- a" := (fopp _ a) : f_scope.

(** ** float64 *)
Module Float64.
Local Open Scope float_scope.

Definition is_nan (x : float) : bool := negb (PrimFloat.eqb x x).
Definition sign_bit (x : float) : bool := get_sign x.

(** math.Max: Inf, then NaN, then signed zeros, then the larger one (standard
    library). *)
Definition max (x y : float) : float :=
  if PrimFloat.eqb x infinity || PrimFloat.eqb y infinity then infinity
  else if is_nan x || is_nan y then nan
  else if PrimFloat.eqb x 0 && PrimFloat.eqb x y then (if sign_bit x then y else x)
  else if PrimFloat.ltb y x then x else y.

(** Exact for |n| <= 2^53 and for powers of two; the model only converts such
    numbers (rounded glue is clamped to 10^9, int(NaN) = -2^63). *)
Fixpoint of_pos (p : positive) : float :=
  match p with
  | xH => 1
  | xO p => 2 * of_pos p
  | xI p => 2 * of_pos p + 1
  end.
Definition ofZ (z : Z) : float :=
  match z with Z0 => 0 | Zpos p => of_pos p | Zneg p => - of_pos p end.

(** Round half away from zero, then conversion to int64 (amd64 gives -2^63 for
    NaN and infinities; not reached with clamped arguments except for NaN). *)
Definition round (x : float) : Z :=
  match Prim2SF x with
  | S754_finite s m e =>
    let r := if (0 <=? e)%Z then (Zpos m * 2 ^ e)%Z
             else ((2 * Zpos m + 2 ^ (- e)) / (2 * 2 ^ (- e)))%Z in
    if s then (- r)%Z else r
  | S754_zero _ => 0%Z
  | _ => (- 2 ^ 63)%Z
  end.

(** math.Ceil *)
Definition ceil (x : float) : float :=
  match Prim2SF x with
  | S754_finite s m e =>
    if (0 <=? e)%Z then x
    else
      let r := if s then (- (Zpos m / 2 ^ (- e)))%Z else (- (- Zpos m / 2 ^ (- e)))%Z in
      if (r =? 0)%Z then (if s then neg_zero else zero) else ofZ r
  | _ => x
  end.
End Float64.

(** float64 without fused multiply-add (amd64). *)
Canonical Structure float64 : arith := {|
  F := float;
  fadd := PrimFloat.add; fsub := PrimFloat.sub; fmul := PrimFloat.mul; fdiv := PrimFloat.div;
  fopp := PrimFloat.opp; fmax := Float64.max;
  feqb := PrimFloat.eqb; fltb := PrimFloat.ltb; finf := PrimFloat.is_infinity;
  fpinf := infinity; fofZ := Float64.ofZ; fround := Float64.round; fceil := Float64.ceil |}.
