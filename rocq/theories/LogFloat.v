(** The laws of LogQuiet.v hold of float64, with numbers of magnitude up to 2^950, and of
    exact arithmetic, with any finite numbers. *)
From Coq Require Import ZArith String List Bool Reals Lia Lra Psatz QArith Qcanon.
From Flocq Require Import Core.Core IEEE754.BinarySingleNaN IEEE754.PrimFloat.
From Verif Require Import Arith Exact OrderLaws Box Mtex Float64Facts PropError PropRows Apx TtfRound LogQuiet.
From Coq Require Import Floats Lra.
Import ListNotations.
Local Open Scope R_scope.

(** ** Rounding *)
Definition unit : R := bpow radix2 900.
Definition LIM : Z := 2 ^ 50.
Definition P64 (k : Z) (x : float) : Prop := (0 <= k)%Z /\ finite x /\ Rabs (R_of x) <= IZR k * unit.
Lemma unit_pos : 0 < unit. Proof. apply bpow_gt_0. Qed.
Lemma unit_1 : 1 <= unit. Proof. apply (bpow_le radix2 0 900). lia. Qed.
Lemma unit_format k : (Z.abs k <= 2 ^ 51)%Z -> generic_format radix2 (FLT_exp (3 - 1024 - 53) 53) (IZR k * unit).
Proof.
  intros H. apply generic_format_FLT. exists (Float radix2 k 900); [reflexivity| |cbn; lia].
  cbn [Fnum]. apply Z.le_lt_trans with (1 := H). reflexivity.
Qed.
Lemma unit_range k z : Rabs z <= IZR k * unit -> (0 <= k <= 2 ^ 51)%Z -> Rabs z <= bpow radix2 1001.
Proof.
  intros H K. eapply Rle_trans; [exact H|]. replace (bpow radix2 1001) with (bpow radix2 101 * unit) by (unfold unit; now rewrite <- bpow_plus).
  apply Rmult_le_compat_r; [apply Rlt_le, unit_pos|]. apply Rle_trans with (IZR (2 ^ 51)); [apply IZR_le, K|].
  change (IZR (2 ^ 51)) with (bpow radix2 51). apply bpow_le. lia.
Qed.
Lemma rnd_unit k z : (0 <= k <= 2 ^ 51)%Z -> Rabs z <= IZR k * unit -> Rabs (rnd z) <= IZR k * unit.
Proof.
  intros K H. apply abs_round_le_generic; [apply FLT_exp_valid; reflexivity|apply valid_rnd_N|apply unit_format; lia|exact H].
Qed.
Lemma rnd_mono x y : x <= y -> rnd x <= rnd y.
Proof. apply round_le; [apply FLT_exp_valid; reflexivity|apply valid_rnd_N]. Qed.
Lemma rnd_same x : rnd (R_of x) = R_of x.
Proof. apply round_generic; [apply valid_rnd_N|]. change (FLT_exp (3 - 1024 - 53) 53) with (SpecFloat.fexp FloatOps.prec FloatOps.emax). apply generic_format_B2R. Qed.
Lemma add_rnd x y : finite x -> finite y -> Rabs (R_of x + R_of y) <= bpow radix2 1001 ->
  finite (x + y)%float /\ R_of (x + y)%float = rnd (R_of x + R_of y).
Proof.
  intros Fx Fy H. rewrite add_equiv.
  pose proof (Bplus_correct FloatOps.prec FloatOps.emax Hprec Hmax mode_NE (Prim2B x) (Prim2B y) Fx Fy) as BC.
  change (SpecFloat.fexp FloatOps.prec FloatOps.emax) with (FLT_exp (3 - 1024 - 53) 53) in BC. cbn [round_mode] in BC.
  rewrite Rlt_bool_true in BC by (apply rnd_range, H).
  destruct BC as (C1 & C2 & _). rewrite C1, C2. split; reflexivity.
Qed.
Lemma opp_R x : finite x -> finite (- x)%float /\ R_of (- x)%float = - R_of x.
Proof. intros F. rewrite opp_equiv, is_finite_Bopp, B2R_Bopp. auto. Qed.
Lemma le_R x y : finite x -> finite y -> (le (A := float64) x y <-> R_of x <= R_of y).
Proof.
  intros Fx Fy. unfold le. change (fltb float64 y x) with (PrimFloat.ltb y x). rewrite ltb_equiv, Bltb_correct by assumption.
  destruct (Rlt_bool_spec (R_of y) (R_of x)); split; intros; try lra; try discriminate; reflexivity.
Qed.
Lemma eq_R x y : finite x -> finite y -> (feqb float64 x y = true <-> R_of x = R_of y).
Proof.
  intros Fx Fy. change (feqb float64 x y) with (PrimFloat.eqb x y). rewrite eqb_equiv, Beqb_correct by assumption.
  destruct (Req_bool_spec (R_of x) (R_of y)); split; intros; try contradiction; try discriminate; auto.
Qed.
Lemma lt_R x y : finite x -> finite y -> (fltb float64 x y = true <-> R_of x < R_of y).
Proof.
  intros Fx Fy. change (fltb float64 x y) with (PrimFloat.ltb x y). rewrite ltb_equiv, Bltb_correct by assumption.
  destruct (Rlt_bool_spec (R_of x) (R_of y)); split; intros; try lra; try discriminate; reflexivity.
Qed.
Lemma zero_fin : finite (@f0 float64) /\ R_of (@f0 float64) = 0.
Proof. exact zero_int. Qed.
Lemma add_P a b x y : P64 a x -> P64 b y -> (a + b <= LIM)%Z ->
  P64 (a + b) (x + y)%float /\ R_of (x + y)%float = rnd (R_of x + R_of y).
Proof.
  unfold LIM. intros (A0 & Fx & Hx) (B0 & Fy & Hy) L.
  assert (S : Rabs (R_of x + R_of y) <= IZR (a + b) * unit) by (rewrite plus_IZR; pose proof (Rabs_triang (R_of x) (R_of y)); lra).
  destruct (add_rnd x y Fx Fy (unit_range _ _ S ltac:(lia))) as [F E]. split; [|exact E].
  split; [lia|]. split; [exact F|]. rewrite E. apply rnd_unit; [lia|exact S].
Qed.
Lemma opp_P a x : P64 a x -> P64 a (- x)%float /\ R_of (- x)%float = - R_of x.
Proof. intros (A0 & F & H). destruct (opp_R x F) as [F' E]. split; [|exact E]. split; [exact A0|]. split; [exact F'|]. now rewrite E, Rabs_Ropp. Qed.
Lemma sub_P a b x y : P64 a x -> P64 b y -> (a + b <= LIM)%Z ->
  P64 (a + b) (x - y)%float /\ R_of (x - y)%float = rnd (R_of x - R_of y).
Proof.
  intros X Y L. destruct (opp_P b y Y) as [Y' E]. rewrite sub_opp. destruct (add_P a b x _ X Y' L) as [Q V]. split; [exact Q|]. now rewrite V, E.
Qed.
Lemma mul_P a x c (k m : Z) : P64 a x -> finite c -> Rabs (R_of c) <= IZR k -> (0 <= k)%Z -> (k * a = m)%Z -> (m <= LIM)%Z ->
  P64 m (x * c)%float /\ R_of (x * c)%float = rnd (R_of x * R_of c).
Proof.
  unfold LIM. intros (A0 & F & H) Fc Hc K0 <- L.
  assert (S : Rabs (R_of x * R_of c) <= IZR (k * a) * unit).
  { rewrite Rabs_mult, mult_IZR. pose proof (Rabs_pos (R_of x)). pose proof (Rabs_pos (R_of c)).
    apply Rle_trans with ((IZR a * unit) * IZR k); [now apply Rmult_le_compat|]. right. ring. }
  destruct (mul_rnd x c F Fc (unit_range _ _ S ltac:(lia))) as [G E]. split; [|exact E].
  split; [lia|]. split; [exact G|]. rewrite E. apply rnd_unit; [lia|exact S].
Qed.
Lemma mul_P' a x c (k m : Z) : P64 a x -> finite c -> Rabs (R_of c) <= IZR k -> (0 <= k)%Z -> (k * a = m)%Z -> (m <= LIM)%Z ->
  P64 m (c * x)%float /\ R_of (c * x)%float = rnd (R_of x * R_of c).
Proof.
  intros X Fc Hc K0 E L. destruct (mul_P a x c k m X Fc Hc K0 E L) as [(M & F & S) V]. destruct X as (_ & Fx & _).
  destruct (mul_comm_R x c Fx Fc F) as [G W]. split; [split; [exact M|split; [exact G|now rewrite W]]|]. now rewrite W.
Qed.
Lemma half_P a x : P64 a x -> (a <= LIM)%Z -> P64 a (x / Float64.ofZ 2)%float.
Proof.
  unfold LIM. intros (A0 & F & H) L. destruct (ofZ_exact 2 ltac:(reflexivity)) as [F2 V2].
  assert (S : Rabs (R_of x / R_of (Float64.ofZ 2)) <= IZR a * unit).
  { rewrite V2. unfold Rdiv. rewrite Rabs_mult. rewrite (Rabs_right (/ 2)) by lra. pose proof (Rabs_pos (R_of x)). lra. }
  destruct (div_rnd x (Float64.ofZ 2) F ltac:(rewrite V2; lra) (unit_range _ _ S ltac:(lia))) as [G E].
  split; [exact A0|]. split; [exact G|]. rewrite E. apply rnd_unit; [lia|exact S].
Qed.
Lemma frat_value n d : forall s m e H, Prim2B (@frat float64 n d) = B754_finite s m e H -> finite (@frat float64 n d) /\ R_of (@frat float64 n d) = F2R (Float radix2 (cond_Zopp s (Zpos m)) e).
Proof. intros s m e H E. rewrite E. split; reflexivity. Qed.
Lemma frat_small n d : (Z.abs n < 2 ^ 53)%Z -> (0 < d < 2 ^ 53)%Z -> forall k, (0 <= k < 2 ^ 51)%Z -> (Z.abs n <= k * d)%Z ->
  finite (@frat float64 n d) /\ Rabs (R_of (@frat float64 n d)) <= IZR k.
Proof.
  intros Hn Hd k Hk H. unfold frat. cbn [fofZ fdiv float64]. destruct (ofZ_exact n Hn) as [Fn En]. destruct (ofZ_exact d ltac:(lia)) as [Fd Ed].
  assert (D : 0 < IZR d) by (apply IZR_lt; lia).
  assert (S : Rabs (IZR n / IZR d) <= IZR k).
  { unfold Rdiv. rewrite Rabs_mult, Rabs_inv, (Rabs_right (IZR d)) by lra. apply Rmult_le_reg_r with (IZR d); [exact D|].
    rewrite Rmult_assoc, Rinv_l, Rmult_1_r by lra. rewrite <- abs_IZR, <- mult_IZR. now apply IZR_le. }
  destruct (div_rnd (Float64.ofZ n) (Float64.ofZ d) Fn ltac:(rewrite Ed; lra)) as [F E].
  { rewrite En, Ed. eapply Rle_trans; [exact S|]. apply Rle_trans with (IZR (2 ^ 51)); [apply IZR_le; lia|]. change (IZR (2 ^ 51)) with (bpow radix2 51). apply bpow_le. lia. }
  split; [exact F|]. rewrite E, En, Ed. apply abs_round_le_generic; [apply FLT_exp_valid; reflexivity|apply valid_rnd_N| |exact S].
  change (FLT_exp (3 - 1024 - 53) 53) with (SpecFloat.fexp FloatOps.prec FloatOps.emax). apply int_format. lia.
Qed.
Lemma half_value : finite (@frat float64 1 2) /\ R_of (@frat float64 1 2) = / 2.
Proof.
  assert (E : exists H, Prim2B (@frat float64 1 2) = B754_finite false 4503599627370496 (-53) H) by (eexists; vm_compute; reflexivity).
  destruct E as (H & E). rewrite E. split; [reflexivity|]. cbn. unfold F2R. cbn. lra.
Qed.
Lemma add_comm_64 x y : finite x -> finite y -> (x + y)%float = (y + x)%float.
Proof.
  intros Fx Fy. apply Prim2B_inj. rewrite !add_equiv.
  pose proof (Bplus_correct FloatOps.prec FloatOps.emax Hprec Hmax mode_NE (Prim2B x) (Prim2B y) Fx Fy) as C1.
  pose proof (Bplus_correct FloatOps.prec FloatOps.emax Hprec Hmax mode_NE (Prim2B y) (Prim2B x) Fy Fx) as C2.
  rewrite (Rplus_comm (R_of y)) in C2. rewrite (andb_comm (Bsign (Prim2B y))) in C2.
  destruct (Rlt_bool _ _).
  - destruct C1 as (A1 & A2 & A3), C2 as (D1 & D2 & D3). apply B2R_Bsign_inj; congruence.
  - destruct C1 as (A1 & A2), C2 as (D1 & D2). apply B2SF_inj. rewrite A1, D1. now rewrite A2.
Qed.
(** One rounding moves a number of at most 2^51 units by at most half a unit. *)
Lemma rnd_slack k z : (0 <= k <= 2 ^ 51)%Z -> Rabs z <= IZR k * unit -> Rabs (rnd z - z) <= / 2 * unit.
Proof.
  intros K H. pose proof (rnd_error z) as E. pose proof u_pos. pose proof unit_1.
  assert (Q : u * Rabs z <= / 4 * unit).
  { apply Rle_trans with (u * (IZR (2 ^ 51) * unit)).
    - apply Rmult_le_compat_l; [lra|]. eapply Rle_trans; [exact H|]. apply Rmult_le_compat_r; [lra|]. apply IZR_le. lia.
    - right. rewrite <- Rmult_assoc. f_equal. change (IZR (2 ^ 51)) with (bpow radix2 51). unfold u. rewrite <- bpow_plus. cbn. lra. }
  pose proof u_8192. lra.
Qed.

Lemma float_laws : bound_laws float64 P64 LIM.
Proof.
  assert (Fin : forall a x, P64 a x -> finite x) by (intros a x H; apply H).
  assert (Zero := zero_fin). destruct Zero as [Fz Vz].
  constructor.
  - intros a x (_ & F & _). apply float_num. destruct (Prim2B x); try discriminate F; reflexivity.
  - intros a x (_ & F & _). change (finf float64 x) with (PrimFloat.is_infinity x). rewrite is_infinity_equiv. destruct (Prim2B x); try discriminate F; reflexivity.
  - intros a x H. apply H.
  - intros a b x (A0 & F & H) L. split; [lia|]. split; [exact F|]. eapply Rle_trans; [exact H|]. apply Rmult_le_compat_r; [apply Rlt_le, unit_pos|now apply IZR_le].
  - split; [lia|]. split; [exact Fz|]. rewrite Vz, Rabs_R0. lra.
  - intros a x (A0 & F & H) L1 L2. apply le_R in L1; auto. apply le_R in L2; auto. split; [lia|]. split; [exact F|].
    replace (R_of x) with 0 by lra. rewrite Rabs_R0. lra.
  - intros a b x y X Y L. now apply add_P.
  - intros a b x y X Y L. now apply sub_P.
  - intros a x X. now apply opp_P.
  - intros a x X L. destruct shrink_value as [F V]. eapply (mul_P a x _ 1); auto; try lia. destruct factors as (_ & _ & _). rewrite V.
    apply Rabs_le. change (-53)%Z with (- (53))%Z. rewrite bpow_opp. change (bpow radix2 53) with (IZR 9007199254740992). lra.
  - intros a x X L. destruct (frat_small 1 5 ltac:(reflexivity) ltac:(lia) 1 ltac:(lia) ltac:(lia)) as [F V]. eapply (mul_P a x _ 1); auto; lia.
  - intros a x X L. destruct half_value as [F V]. eapply (mul_P' a x _ 1); auto; try lia. rewrite V. apply Rabs_le. lra.
  - intros a x X L. destruct (ofZ_exact 2 ltac:(reflexivity)) as [F2 V2]. change (fofZ float64 2) with (Float64.ofZ 2). split; [|split].
    + eapply (mul_P' a x _ 2); auto; try lia. rewrite V2. apply Rabs_le. lra.
    + eapply (mul_P a x _ 2); auto; try lia. rewrite V2. apply Rabs_le. lra.
    + apply half_P; [exact X|]. destruct X as (X & _). lia.
  - intros a x X L. destruct (ofZ_exact 3 ltac:(reflexivity)) as [F2 V2]. change (fofZ float64 3) with (Float64.ofZ 3). eapply (mul_P' a x _ 3); auto; try lia. rewrite V2. apply Rabs_le. lra.
  - intros a x n d X L I. assert (Q : (Z.abs n < 2 ^ 53)%Z /\ (0 < d < 2 ^ 53)%Z /\ (Z.abs n <= 2 * d)%Z).
    { cbn in I. repeat (destruct I as [[= <- <-]|I]; [lia|]). destruct I. }
    destruct Q as (Q1 & Q2 & Q3). destruct (frat_small n d Q1 Q2 2 ltac:(lia) Q3) as [F V]. eapply (mul_P a x _ 2); auto; lia.
  - intros a x X L. pose proof (Fin _ _ X) as F. destruct (add_zero_R x (@f0 float64) F Fz Vz) as [F1 V1].
    change (fadd float64 f0 x) with (@f0 float64 + x)%float.
    assert (F2 := sub_same x _ x F F1 F V1).
    assert (S : finite (x - x)%float /\ R_of (x - x)%float = 0).
    { destruct (opp_R x F) as [G W]. rewrite sub_opp. destruct (add_rnd x (- x)%float F G) as [H1 H2].
      - rewrite W. replace (R_of x + - R_of x) with 0 by ring. rewrite Rabs_R0. apply bpow_ge_0.
      - split; [exact H1|]. rewrite H2, W. replace (R_of x + - R_of x) with 0 by ring. apply round_0. apply valid_rnd_N. }
    destruct S as [S1 S2]. destruct (F2 S1) as [F3 V3].
    apply (eq_R (@f0 float64 + x - x)%float f0 F3 Fz). now rewrite V3, S2, Vz.
  - intros a e b c x d y z X D Y Z' L. unfold LIM in L.
    pose proof (proj1 X). pose proof (proj1 Y). pose proof (proj1 Z'). pose proof (proj1 D).
    destruct (add_P e b d y D Y ltac:(unfold LIM; lia)) as [P1 V1]. destruct (add_P a (e + b) x _ X P1 ltac:(unfold LIM; lia)) as [P2 V2].
    destruct (sub_P b c y z Y Z' ltac:(unfold LIM; lia)) as [P3 V3].
    destruct (add_zero_R _ (@f0 float64) (Fin _ _ P2) Fz Vz) as [F4 V4].
    assert (P4 : P64 (a + (e + b)) (@f0 float64 + (x + (d + y)))%float) by (destruct P2 as (Q1 & Q2 & Q3); split; [exact Q1|split; [exact F4|now rewrite V4]]).
    assert (W1 := rnd_slack (e + b) (R_of d + R_of y) ltac:(lia) ltac:(rewrite plus_IZR; pose proof (Rabs_triang (R_of d) (R_of y)); destruct D as (_ & _ & D), Y as (_ & _ & Y); lra)).
    assert (W2 := rnd_slack (a + (e + b)) (R_of x + R_of (d + y)%float) ltac:(lia) ltac:(rewrite plus_IZR; pose proof (Rabs_triang (R_of x) (R_of (d + y)%float)); destruct X as (_ & _ & X), P1 as (_ & _ & P1); lra)).
    assert (W3 := rnd_slack (b + c) (R_of y - R_of z) ltac:(lia) ltac:(rewrite plus_IZR; pose proof (Rabs_triang (R_of y) (- R_of z)); rewrite Rabs_Ropp in *; destruct Y as (_ & _ & Y), Z' as (_ & _ & Z'); unfold Rminus; lra)).
    change (P64 (a + e + c + 2) ((@f0 float64 + (x + (d + y))) - (y - z))%float).
    rewrite sub_opp. destruct (opp_R _ (Fin _ _ P3)) as [F5 V5].
    assert (S : Rabs (R_of (@f0 float64 + (x + (d + y)))%float + R_of (- (y - z))%float) <= IZR (a + e + c + 2) * unit).
    { rewrite V4, V5, V2, V3, V1 in *. destruct X as (_ & _ & X), D as (_ & _ & D), Z' as (_ & _ & Z'). clear - X D Z' W1 W2 W3. pose proof unit_pos.
      rewrite !plus_IZR. apply Rabs_le_inv in X. apply Rabs_le_inv in D. apply Rabs_le_inv in Z'. apply Rabs_le_inv in W1. apply Rabs_le_inv in W2. apply Rabs_le_inv in W3.
      apply Rabs_le. set (xx := R_of x) in *. set (dd := R_of d) in *. set (yy := R_of y) in *. set (zz := R_of z) in *.
      set (r1 := rnd (dd + yy)) in *. set (r2 := rnd (xx + r1)) in *. set (r3 := rnd (yy - zz)) in *. lra. }
    destruct (add_rnd _ _ F4 F5 (unit_range (a + e + c + 2) _ S ltac:(lia))) as [F6 V6].
    split; [lia|]. split; [exact F6|]. rewrite V6. apply rnd_unit; [lia|exact S].
  - intros a b k h d c H D C C0 L. unfold LIM in L. pose proof (proj1 H). pose proof (proj1 D). pose proof (proj1 C).
    apply le_R in C0; eauto. rewrite Vz in C0.
    destruct (sub_P k b c d C D ltac:(unfold LIM; lia)) as [P1 V1]. destruct (sub_P a (k + b) h _ H P1 ltac:(unfold LIM; lia)) as [P2 V2].
    assert (W1 := rnd_slack (k + b) (R_of c - R_of d) ltac:(lia) ltac:(rewrite plus_IZR; pose proof (Rabs_triang (R_of c) (- R_of d)); rewrite Rabs_Ropp in *; destruct C as (_ & _ & C), D as (_ & _ & D); unfold Rminus; lra)).
    assert (N0 : num (A := float64) f0) by reflexivity.
    assert (N2 : num (A := float64) (h - (c - d))%float) by (apply float_num; destruct P2 as (_ & P2 & _); destruct (Prim2B (h - (c - d))%float); try discriminate P2; reflexivity).
    assert (ZZ : P64 (a + b + 2) (@f0 float64)) by (split; [lia|split; [exact Fz|rewrite Vz, Rabs_R0; apply Rmult_le_pos; [apply IZR_le; lia|apply Rlt_le, unit_pos]]]).
    change (P64 (a + b + 2) (fmax float64 f0 (h - (c - d))%float)).
    destruct (ol_max_in float64 float64_order f0 (h - (c - d))%float N0 N2) as [E|E]; rewrite E; [exact ZZ|].
    assert (G := ol_max_l float64 float64_order f0 (h - (c - d))%float N0 N2). rewrite E in G.
    apply (le_R (@f0 float64) (h - (c - d))%float Fz (Fin _ _ P2)) in G. rewrite Vz in G.
    split; [lia|]. split; [apply P2|]. rewrite (Rabs_right _ (Rle_ge _ _ G)), V2, V1.
    destruct H as (_ & _ & H), D as (_ & _ & D). apply Rabs_le_inv in W1. apply Rabs_le_inv in H. apply Rabs_le_inv in D.
    apply Rle_trans with (rnd (IZR (a + b + 2) * unit)); [apply rnd_mono; rewrite !plus_IZR; pose proof unit_pos; lra|].
    right. apply round_generic; [apply valid_rnd_N|apply unit_format; lia].
  - intros a b c d x y z w X Y Z' W L1 L2 E1 E2. apply le_R in E1; eauto. apply le_R in E2; eauto.
    destruct (add_P a c x z X Z' L1) as [P1 V1]. destruct (add_P b d y w Y W L2) as [P2 V2].
    apply (le_R (x + z)%float (y + w)%float); eauto. rewrite V1, V2. apply rnd_mono. lra.
  - intros a b x y X Y L1 L2 E. unfold LIM in L1, L2. pose proof (proj1 X). pose proof (proj1 Y). apply le_R in E; eauto.
    assert (S : Rabs (R_of y + R_of (- x)%float) <= IZR (b + a) * unit).
    { destruct (opp_R x (Fin _ _ X)) as [_ ->]. rewrite plus_IZR. pose proof (Rabs_triang (R_of y) (- R_of x)). rewrite Rabs_Ropp in *. destruct X as (_ & _ & X), Y as (_ & _ & Y). lra. }
    destruct (opp_R x (Fin _ _ X)) as [Fo Vo]. destruct (add_rnd y (- x)%float (Fin _ _ Y) Fo (unit_range _ _ S ltac:(lia))) as [F V].
    change (le f0 (y - x)%float /\ (feqb float64 (y - x)%float f0 = true \/ fltb float64 f0 (y - x)%float = true)). rewrite sub_opp.
    assert (G : 0 <= R_of (y + - x)%float) by (rewrite V, Vo; apply rnd_pos; lra).
    split; [apply (le_R f0 (y + - x)%float Fz F); now rewrite Vz|].
    destruct (Req_dec (R_of (y + - x)%float) 0) as [E0|E0].
    + left. apply (eq_R (y + - x)%float f0 F Fz). now rewrite Vz.
    + right. apply (lt_R f0 (y + - x)%float Fz F). rewrite Vz. lra.
  - intros a b x y X Y. apply (add_comm_64 x y); eauto.
  - intros a x X L. pose proof (Fin _ _ X) as F. destruct (add_zero_R x (@f0 float64) F Fz Vz) as [F1 V1].
    split; [apply (le_R (@f0 float64 + x)%float x F1 F)|apply (le_R x (@f0 float64 + x)%float F F1)]; rewrite V1; lra.
  - intros a x X L H. pose proof (Fin _ _ X) as F. apply le_R in H; auto. rewrite Vz in H. destruct half_value as [Fh Vh].
    destruct (mul_P' a x _ 1 a X Fh ltac:(rewrite Vh; apply Rabs_le; lra) ltac:(lia) ltac:(lia) L) as [(_ & F1 & _) V1].
    split; [apply (le_R (@frat float64 1 2 * x)%float x F1 F)|apply (le_R f0 (@frat float64 1 2 * x)%float Fz F1)]; rewrite V1, Vh.
    + rewrite <- (rnd_same x) at 2. apply rnd_mono. lra.
    + rewrite Vz. apply rnd_pos. lra.
  - intros a x X L H. pose proof (Fin _ _ X) as F. apply le_R in H; auto. rewrite Vz in H. pose proof (proj1 X) as A0. destruct (ofZ_exact 3 ltac:(reflexivity)) as [F3 V3].
    destruct (mul_P' a x _ 3 _ X F3 ltac:(rewrite V3; apply Rabs_le; lra) ltac:(lia) eq_refl L) as [(_ & F1 & _) V1].
    destruct (add_P a a x x X X ltac:(lia)) as [(_ & F2 & _) V2].
    apply (le_R (x + x)%float (Float64.ofZ 3 * x)%float F2 F1). rewrite V1, V2, V3. apply rnd_mono. lra.
  - reflexivity.
  - repeat split; reflexivity.
  - split; [reflexivity|]. intros a x _. apply ltb_inf.
Qed.

(** ** Exact arithmetic *)
Definition PX (k : Z) (x : xq) : Prop := (0 <= k)%Z /\ exists q, x = Fin q.
Lemma exact_le a b : le (A := exact) (Fin a) (Fin b) <-> (a <= b)%Qc.
Proof. exact (qltb_false b a). Qed.
Lemma exact_laws lim : bound_laws exact PX lim.
Proof.
  assert (H0 : @f0 exact = Fin 0%Qc) by reflexivity.
  constructor.
  - intros a x (_ & q & ->). apply exact_num. discriminate.
  - now intros a x (_ & q & ->).
  - intros a x H. apply H.
  - intros a b x (A0 & q & ->) L. split; [lia|eauto].
  - split; [lia|]. rewrite H0. eauto.
  - intros a x (A0 & q & ->) _ _. split; [lia|eauto].
  - intros a b x y (A0 & q & ->) (B0 & r & ->) L. split; [lia|]. exists (q + r)%Qc. reflexivity.
  - intros a b x y (A0 & q & ->) (B0 & r & ->) L. split; [lia|]. exists (q + - r)%Qc. reflexivity.
  - intros a x (A0 & q & ->). split; [lia|]. exists (- q)%Qc. reflexivity.
  - intros a x (A0 & q & ->) L. split; [lia|]. eexists. reflexivity.
  - intros a x (A0 & q & ->) L. split; [lia|]. eexists. reflexivity.
  - intros a x (A0 & q & ->) L. split; [lia|]. eexists. reflexivity.
  - intros a x (A0 & q & ->) L. split; [|split]; (split; [lia|eexists; reflexivity]).
  - intros a x (A0 & q & ->) L. split; [lia|eexists; reflexivity].
  - intros a x n d (A0 & q & ->) L I. split; [lia|]. assert (E : exists c, @frat exact n d = Fin c).
    { cbn in I. repeat (destruct I as [[= <- <-]|I]; [eexists; reflexivity|]). destruct I. }
    destruct E as [c ->]. eexists. reflexivity.
  - intros a x (A0 & q & ->) L. apply qeqb_iff. change (0 + q + - q = 0)%Qc. ring.
  - intros a e b c x d y z (A0 & q & ->) (E0 & r & ->) (B0 & s & ->) (C0 & t & ->) L. split; [lia|]. eexists. reflexivity.
  - intros a b k h d c (A0 & q & ->) (B0 & r & ->) (K0 & s & ->) _ L. split; [lia|].
    destruct (ol_max_in exact exact_order f0 (fsub exact (Fin q) (fsub exact (Fin s) (Fin r)))) as [E|E];
      [now apply exact_num|now apply exact_num|rewrite E; eexists; reflexivity|rewrite E; eexists; reflexivity].
  - intros a b c d x y z w (A0 & q & ->) (B0 & r & ->) (C0 & s & ->) (D0 & t & ->) L1 L2 E1 E2.
    apply exact_le in E1. apply exact_le in E2. apply (exact_le (q + s) (r + t)). now apply Qcplus_le_compat.
  - intros a b x y (A0 & q & ->) (B0 & r & ->) L1 L2 E. apply exact_le in E.
    assert (G : (0 <= r + - q)%Qc) by (apply (Qcle_minus_iff q r); exact E).
    split; [exact (proj2 (exact_le 0 (r + - q)) G)|].
    destruct (Qc_eq_dec (r + - q)%Qc 0%Qc) as [E0|E0].
    + left. exact (proj2 (qeqb_iff (r + - q) 0) E0).
    + right. apply (proj2 (qltb_iff 0 (r + - q))). apply Qcle_lt_or_eq in G as [G|G]; [exact G|congruence].
  - intros a b x y _ _. apply xadd_comm.
  - intros a x (A0 & q & ->) L. split; [apply (exact_le (0 + q) q)|apply (exact_le q (0 + q))]; rewrite Qcplus_0_l; apply Qcle_refl.
  - intros a x (A0 & q & ->) L H. apply exact_le in H. split.
    + apply (exact_le (Q2Qc (1 # 2) * q) q). rewrite <- (Qcmult_1_l q) at 2. apply Qcmult_le_compat_r; [discriminate|exact H].
    + apply (exact_le 0 (Q2Qc (1 # 2) * q)). rewrite <- (Qcmult_0_l q). apply Qcmult_le_compat_r; [discriminate|exact H].
  - intros a x (A0 & q & ->) L H. apply exact_le in H. apply (exact_le (q + q) (Q2Qc 3 * q)).
    replace (q + q)%Qc with (Q2Qc 2 * q)%Qc by (change (Q2Qc 2) with (1 + 1)%Qc; ring). apply Qcmult_le_compat_r; [discriminate|exact H].
  - reflexivity.
  - repeat split; reflexivity.
  - split; [reflexivity|]. now intros a x (_ & q & ->).
Qed.
