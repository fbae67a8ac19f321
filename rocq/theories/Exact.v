(** Exact arithmetic: rationals with infinities and NaN.  Every finite float64 is
    a rational, and the infinities follow IEEE 754 (a zero counts as +0).  The
    laws below are proved without any axiom. *)
From Coq Require Import ZArith Bool List Lia QArith Qcanon Qround Lqa.
From Verif Require Import Arith.
Import ListNotations.
Local Open Scope Z_scope.

Inductive xq : Type := Fin (q : Qc) | PInf | NInf | NaN.

Definition qltb (a b : Qc) : bool := negb (Qle_bool b a).
Definition qeqb (a b : Qc) : bool := Qeq_bool a b.

Definition xopp (x : xq) : xq :=
  match x with Fin q => Fin (- q)%Qc | PInf => NInf | NInf => PInf | NaN => NaN end.
Definition xadd (x y : xq) : xq :=
  match x, y with
  | Fin a, Fin b => Fin (a + b)%Qc
  | NaN, _ | _, NaN => NaN
  | PInf, NInf | NInf, PInf => NaN
  | PInf, _ | _, PInf => PInf
  | NInf, _ | _, NInf => NInf
  end.
Definition xsub (x y : xq) : xq := xadd x (xopp y).
(** Infinity times a rational. *)
Definition xinf_mul (x : xq) (q : Qc) : xq :=
  if qeqb q 0%Qc then NaN else if qltb 0%Qc q then x else xopp x.
Definition xmul (x y : xq) : xq :=
  match x, y with
  | Fin a, Fin b => Fin (a * b)%Qc
  | NaN, _ | _, NaN => NaN
  | Fin a, i => xinf_mul i a
  | i, Fin b => xinf_mul i b
  | PInf, PInf | NInf, NInf => PInf
  | _, _ => NInf
  end.
Definition xdiv (x y : xq) : xq :=
  match x, y with
  | NaN, _ | _, NaN => NaN
  | Fin a, Fin b =>
    if qeqb b 0%Qc then (if qeqb a 0%Qc then NaN else if qltb 0%Qc a then PInf else NInf)
    else Fin (a / b)%Qc
  | Fin _, _ => Fin 0%Qc
  | i, Fin b => if qltb b 0%Qc then xopp i else i
  | _, _ => NaN
  end.
Definition xeqb (x y : xq) : bool :=
  match x, y with
  | Fin a, Fin b => qeqb a b
  | PInf, PInf | NInf, NInf => true
  | _, _ => false
  end.
Definition xltb (x y : xq) : bool :=
  match x, y with
  | Fin a, Fin b => qltb a b
  | Fin _, PInf | NInf, Fin _ | NInf, PInf => true
  | _, _ => false
  end.
Definition xmax (x y : xq) : xq :=
  match x, y with
  | PInf, _ | _, PInf => PInf
  | NaN, _ | _, NaN => NaN
  | _, _ => if xltb y x then x else y
  end.
Definition xinf (x : xq) : bool := match x with PInf | NInf => true | _ => false end.
Definition xofZ (z : Z) : xq := Fin (Q2Qc (inject_Z z)).
(** Round half away from zero. *)
Definition qround (q : Qc) : Z :=
  if Qle_bool 0 q then Qfloor (q + (1 # 2))%Q else - Qfloor (- q + (1 # 2))%Q.
Definition xround (x : xq) : Z := match x with Fin q => qround q | _ => - 2 ^ 63 end.
Definition xceil (x : xq) : xq := match x with Fin q => xofZ (Qceiling q) | _ => x end.

Canonical Structure exact : arith := {|
  F := xq; fadd := xadd; fsub := xsub; fmul := xmul; fdiv := xdiv; fopp := xopp; fmax := xmax;
  feqb := xeqb; fltb := xltb; finf := xinf; fpinf := PInf; fofZ := xofZ; fround := xround; fceil := xceil |}.

(** ** Rationals *)
Lemma qltb_iff a b : qltb a b = true <-> (a < b)%Qc.
Proof.
  unfold qltb. rewrite negb_true_iff. unfold Qclt. rewrite <- not_true_iff_false, Qle_bool_iff.
  split; [apply Qnot_le_lt|apply Qlt_not_le].
Qed.
Lemma qltb_false a b : qltb a b = false <-> (b <= a)%Qc.
Proof. unfold qltb. rewrite negb_false_iff. unfold Qcle. apply Qle_bool_iff. Qed.
Lemma qeqb_iff a b : qeqb a b = true <-> a = b.
Proof. unfold qeqb. rewrite Qeq_bool_iff. split; [apply Qc_is_canon|now intros ->]. Qed.
Lemma qeqb_refl a : qeqb a a = true.
Proof. now apply qeqb_iff. Qed.

Lemma qltb_irrefl a : qltb a a = false.
Proof. apply qltb_false. apply Qcle_refl. Qed.

(** ** Laws *)
Local Ltac xcase := repeat match goal with x : xq |- _ => destruct x end.

Lemma xadd_comm x y : xadd x y = xadd y x.
Proof. xcase; try reflexivity. cbn. now rewrite Qcplus_comm. Qed.
Lemma xadd_assoc x y z : xadd x (xadd y z) = xadd (xadd x y) z.
Proof. xcase; try reflexivity. cbn. now rewrite Qcplus_assoc. Qed.
Lemma xadd_0_r x : xadd x (Fin 0) = x.
Proof. xcase; try reflexivity. cbn. now rewrite Qcplus_0_r. Qed.
Lemma xadd_0_l x : xadd (Fin 0) x = x.
Proof. rewrite xadd_comm. apply xadd_0_r. Qed.

Lemma xeqb_eq x y : xeqb x y = true -> x = y.
Proof. xcase; cbn; try discriminate; try reflexivity. now intros H%qeqb_iff; subst. Qed.

Definition pos (s : Qc) : Prop := (0 < s)%Qc.

Lemma pos_eqb s : pos s -> qeqb s 0%Qc = false.
Proof.
  intros H. apply not_true_iff_false. rewrite qeqb_iff. intros ->. now apply (Qclt_not_eq 0%Qc 0%Qc).
Qed.
Lemma pos_ltb s : pos s -> qltb 0%Qc s = true.
Proof. apply qltb_iff. Qed.

Lemma xmul_inf_pos x s : pos s -> xinf_mul x s = x.
Proof. intros H. unfold xinf_mul. now rewrite pos_eqb, pos_ltb. Qed.

Lemma xmul_add_distr x y s : pos s -> xmul (xadd x y) (Fin s) = xadd (xmul x (Fin s)) (xmul y (Fin s)).
Proof.
  intros H. xcase; cbn; rewrite ?xmul_inf_pos by assumption; try reflexivity.
  now rewrite Qcmult_plus_distr_l.
Qed.
Lemma xopp_mul x s : xopp (xmul x (Fin s)) = xmul (xopp x) (Fin s).
Proof.
  xcase; cbn; try reflexivity.
  - f_equal. ring.
  - unfold xinf_mul. destruct (qeqb s 0%Qc); [reflexivity|]. destruct (qltb _ _); reflexivity.
  - unfold xinf_mul. destruct (qeqb s 0%Qc); [reflexivity|]. destruct (qltb _ _); reflexivity.
Qed.
Lemma xmul_sub_distr x y s : pos s -> xmul (xsub x y) (Fin s) = xsub (xmul x (Fin s)) (xmul y (Fin s)).
Proof. intros H. unfold xsub. rewrite xmul_add_distr by assumption. now rewrite xopp_mul. Qed.

Lemma qltb_mul a b s : pos s -> qltb (a * s)%Qc (b * s)%Qc = qltb a b.
Proof.
  intros H. destruct (qltb a b) eqn:E.
  - apply qltb_iff. apply qltb_iff in E. now apply Qcmult_lt_compat_r.
  - apply qltb_false. apply qltb_false in E. apply Qcmult_le_compat_r; [assumption|]. now apply Qclt_le_weak.
Qed.
Lemma xltb_mul x y s : pos s -> xltb (xmul x (Fin s)) (xmul y (Fin s)) = xltb x y.
Proof.
  intros H. xcase; cbn; rewrite ?xmul_inf_pos by assumption; try reflexivity. now apply qltb_mul.
Qed.
Lemma xmax_mul x y s : pos s -> xmul (xmax x y) (Fin s) = xmax (xmul x (Fin s)) (xmul y (Fin s)).
Proof.
  intros H. xcase; cbn; rewrite ?xmul_inf_pos by assumption; try reflexivity.
  rewrite qltb_mul by assumption. destruct (qltb _ _); reflexivity.
Qed.
Lemma xinf_mul_pos x s : pos s -> xinf (xmul x (Fin s)) = xinf x.
Proof. intros H. xcase; cbn; rewrite ?xmul_inf_pos by assumption; reflexivity. Qed.

Lemma xmul_inv x s t : pos s -> pos t -> (s * t)%Qc = 1%Qc -> xmul (xmul x (Fin s)) (Fin t) = x.
Proof.
  intros Hs Ht E. xcase; cbn; rewrite ?xmul_inf_pos by assumption; try reflexivity.
  - f_equal. rewrite <- Qcmult_assoc, E. ring.
  - cbn; now rewrite xmul_inf_pos.
  - cbn; now rewrite xmul_inf_pos.
Qed.
Lemma xmul_0 s : xmul (Fin 0) (Fin s) = Fin 0.
Proof. cbn. f_equal. ring. Qed.

(** Integers *)
Lemma xofZ_add a b : xofZ (a + b) = xadd (xofZ a) (xofZ b).
Proof. unfold xofZ. cbn. f_equal. apply Qc_is_canon. unfold Qcplus, Q2Qc, this. rewrite !Qred_correct. rewrite inject_Z_plus. reflexivity. Qed.
Lemma xofZ_0 : xofZ 0 = Fin 0.
Proof. unfold xofZ. f_equal. Qed.

(** Order *)
Definition xnan (x : xq) : Prop := x = NaN.

Lemma qltb_trans_f a b c : qltb b a = false -> qltb c b = false -> qltb c a = false.
Proof. rewrite !qltb_false. apply Qcle_trans. Qed.
Lemma xltb_trans_f x y z : x <> NaN -> y <> NaN -> z <> NaN -> xltb y x = false -> xltb z y = false -> xltb z x = false.
Proof. xcase; cbn; try congruence. intros _ _ _. apply qltb_trans_f. Qed.
Lemma qltb_asym a b : qltb a b = true -> qltb b a = false.
Proof. rewrite qltb_iff, qltb_false. apply Qclt_le_weak. Qed.

Lemma xmax_ub_l x y : x <> NaN -> y <> NaN -> xltb (xmax x y) x = false.
Proof.
  destruct x, y; cbn; try congruence; intros _ _; try reflexivity; try apply qltb_irrefl.
  destruct (qltb q0 q) eqn:E; cbn; [apply qltb_irrefl|assumption].
Qed.
Lemma xmax_ub_r x y : x <> NaN -> y <> NaN -> xltb (xmax x y) y = false.
Proof.
  destruct x, y; cbn; try congruence; intros _ _; try reflexivity; try apply qltb_irrefl.
  destruct (qltb q0 q) eqn:E; cbn; [now apply qltb_asym|apply qltb_irrefl].
Qed.
Lemma xmax_in x y : x <> NaN -> y <> NaN -> xmax x y = x \/ xmax x y = y.
Proof. xcase; cbn; try congruence; intros _ _; auto; destruct (qltb _ _); auto. Qed.

(** Rounding is within one half. *)
Lemma qround_bound q : (- (1 # 2) <= inject_Z (qround q) - q <= 1 # 2)%Q.
Proof.
  unfold qround. destruct (Qle_bool 0 q).
  - pose proof (Qfloor_le (q + (1 # 2))) as H1. pose proof (Qlt_floor (q + (1 # 2))) as H2.
    rewrite inject_Z_plus in H2. change (inject_Z 1) with 1%Q in H2.
    lra.
  - pose proof (Qfloor_le (- q + (1 # 2))) as H1. pose proof (Qlt_floor (- q + (1 # 2))) as H2.
    rewrite inject_Z_plus in H2. change (inject_Z 1) with 1%Q in H2. rewrite inject_Z_opp.
    lra.
Qed.
