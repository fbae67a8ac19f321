(** The conversions of the float64 arithmetic agree with the real numbers: integers
    below 2^53 are exact, math.Ceil is the ceiling, int(math.Round(x)) is rounding
    half away from zero. *)
From Coq Require Import ZArith Bool Reals Lia Lra Psatz.
From Flocq Require Import Core.Core IEEE754.BinarySingleNaN IEEE754.PrimFloat.
From Coq Require Import Floats.
From Verif Require Import Arith.
Local Open Scope Z_scope.

Notation R_of x := (BinarySingleNaN.B2R (Prim2B x)).
Notation finite x := (BinarySingleNaN.is_finite (Prim2B x) = true).

Lemma int_format (z : Z) : Z.abs z < 2 ^ 53 -> generic_format radix2 (SpecFloat.fexp FloatOps.prec FloatOps.emax) (IZR z).
Proof.
  intros H. change (SpecFloat.fexp FloatOps.prec FloatOps.emax) with (FLT_exp (3 - 1024 - 53) 53).
  apply generic_format_FLT. exists (Float radix2 z 0).
  - unfold F2R; cbn. ring.
  - exact H.
  - cbn. lia.
Qed.
Lemma small_int (z : Z) : Z.abs z < 2 ^ 53 -> (Rabs (IZR z) < bpow radix2 FloatOps.emax)%R.
Proof.
  intros H. rewrite <- abs_IZR. apply (Rlt_le_trans _ (bpow radix2 53)).
  - change (bpow radix2 53) with (IZR (2 ^ 53)). now apply IZR_lt.
  - apply bpow_le. vm_compute. discriminate.
Qed.

Lemma mul_int (x y : float) (a b : Z) : finite x -> finite y -> R_of x = IZR a -> R_of y = IZR b ->
  Z.abs (a * b) < 2 ^ 53 -> finite (x * y)%float /\ R_of (x * y)%float = IZR (a * b).
Proof.
  intros Fx Fy Ex Ey H. rewrite mul_equiv.
  pose proof (Bmult_correct FloatOps.prec FloatOps.emax Hprec Hmax mode_NE (Prim2B x) (Prim2B y)) as B. cbv zeta in B.
  rewrite Ex, Ey, <- mult_IZR in B. rewrite round_generic in B; [|apply valid_rnd_N|now apply int_format].
  rewrite Rlt_bool_true in B by now apply small_int. destruct B as (B1 & B2 & _). rewrite B2, Fx, Fy. split; [reflexivity|exact B1].
Qed.
Lemma add_int (x y : float) (a b : Z) : finite x -> finite y -> R_of x = IZR a -> R_of y = IZR b ->
  Z.abs (a + b) < 2 ^ 53 -> finite (x + y)%float /\ R_of (x + y)%float = IZR (a + b).
Proof.
  intros Fx Fy Ex Ey H. rewrite add_equiv.
  pose proof (Bplus_correct FloatOps.prec FloatOps.emax Hprec Hmax mode_NE (Prim2B x) (Prim2B y) Fx Fy) as B.
  rewrite Ex, Ey, <- plus_IZR in B. rewrite round_generic in B; [|apply valid_rnd_N|now apply int_format].
  rewrite Rlt_bool_true in B by now apply small_int. destruct B as (B1 & B2 & _). split; [exact B2|exact B1].
Qed.
Lemma one_int : finite 1%float /\ R_of 1%float = IZR 1.
Proof.
  change 1%float with one. rewrite one_equiv, Prim2B_B2Prim. split; [apply is_finite_Bone|apply Bone_correct].
Qed.
Lemma two_int : finite 2%float /\ R_of 2%float = IZR 2.
Proof. destruct one_int as [F E]. change 2%float with (1 + 1)%float. apply (add_int 1 1 1 1); auto. cbn. lia. Qed.
Lemma zero_int : finite 0%float /\ R_of 0%float = IZR 0.
Proof. split; reflexivity. Qed.

Lemma of_pos_int (p : positive) : Zpos p < 2 ^ 53 -> finite (Float64.of_pos p) /\ R_of (Float64.of_pos p) = IZR (Zpos p).
Proof.
  destruct two_int as [F2 E2]. destruct one_int as [F1 E1].
  induction p as [p IH|p IH|]; intros H; cbn [Float64.of_pos].
  - destruct IH as [Fp Ep]; [lia|]. destruct (mul_int _ _ _ _ F2 Fp E2 Ep) as [Fm Em]; [lia|].
    destruct (add_int _ _ _ _ Fm F1 Em E1) as [Fa Ea]; [lia|]. split; [exact Fa|]. rewrite Ea. apply f_equal. lia.
  - destruct IH as [Fp Ep]; [lia|]. destruct (mul_int _ _ _ _ F2 Fp E2 Ep) as [Fm Em]; [lia|].
    split; [exact Fm|]. rewrite Em. apply f_equal. lia.
  - split; assumption.
Qed.
(** Integer conversion is exact below 2^53. *)
Theorem ofZ_exact (z : Z) : Z.abs z < 2 ^ 53 -> finite (Float64.ofZ z) /\ R_of (Float64.ofZ z) = IZR z.
Proof.
  destruct z as [|p|p]; cbn [Float64.ofZ]; intros H.
  - split; reflexivity.
  - apply of_pos_int. exact H.
  - destruct (of_pos_int p H) as [F E]. rewrite opp_equiv. rewrite is_finite_Bopp, B2R_Bopp, E. split; [exact F|].
    now rewrite <- opp_IZR.
Qed.

(** The representation of a finite number. *)
Lemma bounded_mantissa m e : SpecFloat.bounded FloatOps.prec FloatOps.emax m e = true -> Zpos m < 2 ^ 53.
Proof.
  intros B. apply andb_true_iff in B as [B _]. apply Zeq_bool_eq in B. unfold SpecFloat.fexp in B.
  rewrite Digits.Zpos_digits2_pos in B.
  change (2 ^ 53) with (Zpower radix2 53). change (Zpos m) with (Z.abs (Zpos m)). apply Digits.Zpower_gt_Zdigits.
  unfold FloatOps.prec in B. lia.
Qed.
Lemma finite_cases (x : float) : finite x ->
  (exists s, Prim2SF x = S754_zero s /\ R_of x = 0%R) \/
  (exists s m e, Prim2SF x = S754_finite s m e /\ R_of x = F2R (Float radix2 (cond_Zopp s (Zpos m)) e) /\ Zpos m < 2 ^ 53).
Proof.
  intros F. rewrite <- B2SF_Prim2B. destruct (Prim2B x) as [s| | |s m e B]; try discriminate F.
  - left. exists s. split; reflexivity.
  - right. exists s, m, e. split; [reflexivity|]. split; [reflexivity|]. exact (bounded_mantissa m e B).
Qed.

Lemma bpow_neg_div (a e : Z) : e < 0 -> F2R (Float radix2 a e) = (IZR a / IZR (2 ^ (- e)))%R.
Proof.
  intros H. unfold F2R. cbn [Fnum Fexp]. replace e with (- (- e)) at 1 by lia. rewrite bpow_opp.
  unfold Rdiv. apply f_equal. apply f_equal. change 2 with (radix_val radix2). rewrite IZR_Zpower by lia. reflexivity.
Qed.
Lemma bpow_pos_mul (a e : Z) : 0 <= e -> F2R (Float radix2 a e) = IZR (a * 2 ^ e).
Proof.
  intros H. unfold F2R. cbn [Fnum Fexp]. rewrite mult_IZR. apply f_equal. change 2 with (radix_val radix2).
  now rewrite IZR_Zpower.
Qed.
Lemma Zceil_div (a d : Z) : 0 < d -> Zceil (IZR a / IZR d) = - (- a / d).
Proof.
  intros H. unfold Zceil. rewrite <- Zfloor_div by lia. apply f_equal. apply f_equal. rewrite opp_IZR.
  field. apply not_0_IZR. lia.
Qed.

(** math.Ceil is the ceiling. *)
Theorem ceil_exact (x : float) : finite x -> finite (Float64.ceil x) /\ R_of (Float64.ceil x) = IZR (Zceil (R_of x)).
Proof.
  intros F. unfold Float64.ceil. destruct (finite_cases x F) as [(s & -> & E)|(s & m & e & -> & E & B)].
  - split; [exact F|]. rewrite E. now rewrite (Zceil_IZR 0).
  - destruct (Z.leb_spec 0 e) as [P|N].
    + split; [exact F|]. rewrite E, bpow_pos_mul by assumption. now rewrite Zceil_IZR.
    + rewrite E, bpow_neg_div by assumption. assert (D : 0 < 2 ^ (- e)) by (apply Z.pow_pos_nonneg; lia).
      assert (D2 : 2 <= 2 ^ (- e)). { change 2 with (2 ^ 1) at 1. apply Z.pow_le_mono_r; lia. }
      rewrite Zceil_div by assumption.
      set (r := if s then _ else _).
      assert (R : - (- cond_Zopp s (Zpos m) / 2 ^ (- e)) = r) by (destruct s; reflexivity).
      rewrite R.
      assert (RB : Z.abs r < 2 ^ 53).
      { destruct s; unfold r; clear -B D D2.
        - rewrite Z.abs_opp, Z.abs_eq by (apply Z.div_pos; lia). apply Z.le_lt_trans with (Z.pos m); [|exact B].
          apply Z.div_le_upper_bound; nia.
        - pose proof (Z.div_mod (- Z.pos m) (2 ^ (- e))) as Q. pose proof (Z.mod_pos_bound (- Z.pos m) (2 ^ (- e)) D).
          assert (- Z.pos m / 2 ^ (- e) <= 0) by nia. assert (- Z.pos m <= - Z.pos m / 2 ^ (- e)) by nia. lia. }
      destruct (Z.eqb_spec r 0) as [->|NZ].
      * destruct s; split; reflexivity.
      * apply ofZ_exact. exact RB.
Qed.

(** int(math.Round(x)) is the nearest integer, ties away from zero. *)
Lemma nearest_pos (y : R) : (0 <= y)%R -> ZnearestA y = Zfloor (y + / 2).
Proof.
  intros P. unfold Znearest. pose proof (Zfloor_lb y) as L. pose proof (Zfloor_ub y) as U.
  assert (N : 0 <= Zfloor y) by (apply Zfloor_lub; exact P).
  assert (C : (y - IZR (Zfloor y) >= / 2)%R -> Zceil y = Zfloor y + 1 /\ Zfloor (y + / 2) = Zfloor y + 1).
  { intros G. split; [apply Zceil_floor_neq; lra|]. apply Zfloor_imp. rewrite !plus_IZR. lra. }
  destruct (Rcompare_spec (y - IZR (Zfloor y)) (/ 2)) as [H|H|H].
  - symmetry. apply Zfloor_imp. rewrite plus_IZR. lra.
  - destruct (C ltac:(lra)) as [-> ->]. destruct (Z.leb_spec 0 (Zfloor y)); [reflexivity|lia].
  - destruct (C ltac:(lra)) as [-> ->]. reflexivity.
Qed.
Lemma nearest_int (n : Z) : ZnearestA (IZR n) = n.
Proof. apply (Zrnd_IZR (Znearest (Z.leb 0))). Qed.
Theorem round_exact (x : float) : finite x -> Float64.round x = ZnearestA (R_of x).
Proof.
  intros F. unfold Float64.round. destruct (finite_cases x F) as [(s & -> & E)|(s & m & e & -> & E & B)].
  - rewrite E. symmetry. apply nearest_int.
  - rewrite E.
    assert (POS : (if 0 <=? e then Zpos m * 2 ^ e else (2 * Zpos m + 2 ^ (- e)) / (2 * 2 ^ (- e))) =
                  ZnearestA (F2R (Float radix2 (Zpos m) e))).
    { destruct (Z.leb_spec 0 e) as [P|N].
      - rewrite bpow_pos_mul by assumption. now rewrite nearest_int.
      - rewrite bpow_neg_div by assumption. assert (D : 0 < 2 ^ (- e)) by (apply Z.pow_pos_nonneg; lia).
        set (d := 2 ^ (- e)) in *. clearbody d. clear -D.
        assert (RD : (IZR d > 0)%R) by (apply Rlt_gt, IZR_lt; exact D).
        rewrite nearest_pos.
        + rewrite <- Zfloor_div by lia. apply f_equal. rewrite plus_IZR, !mult_IZR. field. lra.
        + apply Rmult_le_pos; [apply IZR_le; lia|]. left. now apply Rinv_0_lt_compat. }
    rewrite POS. clear POS. destruct s; cbn [cond_Zopp]; [|reflexivity].
    change (- Z.pos m) with (- (Z.pos m)). rewrite F2R_Zopp, Znearest_opp. apply f_equal.
    unfold Znearest. destruct (Rcompare _ _); try reflexivity.
    set (f := Zfloor _). assert (0 <= f).
    { apply Zfloor_lub. apply F2R_ge_0. cbn. lia. }
    destruct (Z.leb_spec 0 (- (f + 1))), (Z.leb_spec 0 f); (reflexivity || lia).
Qed.

(** int(math.Ceil(x)). *)
Theorem int_ceil_exact (x : float) : finite x -> Float64.round (Float64.ceil x) = Zceil (R_of x).
Proof.
  intros F. destruct (ceil_exact x F) as [F' E]. rewrite round_exact by exact F'. rewrite E. apply nearest_int.
Qed.
