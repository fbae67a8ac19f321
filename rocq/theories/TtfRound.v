(** Rounding in the measurements of the TrueType backend: how far the float64 numbers
    are from the numbers of the font. *)
From Coq Require Import ZArith String List Bool Reals Lia Lra Psatz QArith Qcanon.
From Flocq Require Import Core.Core Relative IEEE754.BinarySingleNaN IEEE754.PrimFloat.
From Verif Require Import Arith Float64Facts PropError PropRows Apx.
From Coq Require Import Floats Lra.
Local Open Scope R_scope.

(** The error of one rounding, with underflow. *)
Definition eta : R := bpow radix2 (-1075).
Lemma eta_pos : 0 < eta. Proof. apply bpow_gt_0. Qed.
Lemma rnd_fine z : Rabs (rnd z - z) <= u * Rabs z + eta.
Proof.
  destruct (error_N_FLT radix2 (3 - 1024 - 53) 53 eq_refl (fun x => negb (Z.even x)) z) as (eps & et & E1 & E2 & _ & E).
  assert (UU : / 2 * bpow radix2 (- (53) + 1) = u).
  { unfold u. rewrite bpow_plus. change (bpow radix2 1) with 2. change (bpow radix2 (- (53))) with (bpow radix2 (-53)). lra. }
  rewrite UU in E1.
  assert (ET : Rabs et <= eta). { eapply Rle_trans; [exact E2|]. unfold eta. change (/ 2) with (bpow radix2 (-1)). rewrite <- bpow_plus. apply bpow_le. lia. }
  unfold rnd. rewrite E. replace (z * (1 + eps) + et - z) with (eps * z + et) by ring. eapply Rle_trans; [apply Rabs_triang|]. rewrite Rabs_mult.
  assert (Rabs eps * Rabs z <= u * Rabs z) by (apply Rmult_le_compat_r; [apply Rabs_pos|assumption]). lra.
Qed.
Lemma rnd_pos z : 0 <= z -> 0 <= rnd z.
Proof. intros H. apply round_ge_generic; [apply FLT_exp_valid; reflexivity|apply valid_rnd_N|apply generic_format_0|exact H]. Qed.
Lemma mul_rnd x y : finite x -> finite y -> Rabs (R_of x * R_of y) <= bpow radix2 1001 ->
  finite (x * y)%float /\ R_of (x * y)%float = rnd (R_of x * R_of y).
Proof.
  intros Fx Fy H. rewrite mul_equiv.
  pose proof (Bmult_correct FloatOps.prec FloatOps.emax Hprec Hmax mode_NE (Prim2B x) (Prim2B y)) as BC. cbv zeta in BC.
  change (SpecFloat.fexp FloatOps.prec FloatOps.emax) with (FLT_exp (3 - 1024 - 53) 53) in BC. cbn [round_mode] in BC.
  rewrite Rlt_bool_true in BC by (apply rnd_range, H).
  destruct BC as (C1 & C2 & _). rewrite C1, C2, Fx, Fy. split; reflexivity.
Qed.
Lemma div_rnd x y : finite x -> R_of y <> 0 -> Rabs (R_of x / R_of y) <= bpow radix2 1001 ->
  finite (x / y)%float /\ R_of (x / y)%float = rnd (R_of x / R_of y).
Proof.
  intros Fx Ny H. rewrite div_equiv.
  pose proof (Bdiv_correct FloatOps.prec FloatOps.emax Hprec Hmax mode_NE (Prim2B x) (Prim2B y) Ny) as BC. cbv zeta in BC.
  change (SpecFloat.fexp FloatOps.prec FloatOps.emax) with (FLT_exp (3 - 1024 - 53) 53) in BC. cbn [round_mode] in BC.
  rewrite Rlt_bool_true in BC by (apply rnd_range, H).
  destruct BC as (C1 & C2 & _). rewrite C1, C2, Fx. split; reflexivity.
Qed.

(** [x] is [q] up to k units of relative error and [t]. *)
Definition rel (k t : R) (x : float) (q : R) : Prop := finite x /\ Rabs (R_of x - q) <= k * u * Rabs q + t.
Lemma rel_exact x q : finite x -> R_of x = q -> rel 0 0 x q.
Proof. intros F <-. split; [exact F|]. replace (R_of x - R_of x) with 0 by ring. rewrite Rabs_R0. lra. Qed.
Lemma rel_mono k t k' t' x q : rel k t x q -> k <= k' -> t <= t' -> rel k' t' x q.
Proof.
  intros [F H] K T. split; [exact F|]. eapply Rle_trans; [exact H|]. pose proof u_pos. pose proof (Rabs_pos q).
  assert (k * u * Rabs q <= k' * u * Rabs q); [|lra]. apply Rmult_le_compat_r; [lra|]. apply Rmult_le_compat_r; lra.
Qed.
Lemma k_small k q : 0 <= k <= 64 -> k * u * Rabs q <= Rabs q.
Proof.
  intros K. pose proof u_8192. pose proof u_pos. pose proof (Rabs_pos q). assert (k * u <= 1); [|pose proof (Rmult_le_compat_r (Rabs q) (k * u) 1); lra].
  apply Rle_trans with (64 * u); [apply Rmult_le_compat_r; lra|lra].
Qed.
Lemma rel_size k t x q : rel k t x q -> 0 <= k <= 64 -> Rabs (R_of x) <= 2 * Rabs q + t.
Proof.
  intros [F H] K. pose proof (k_small k q K). replace (R_of x) with ((R_of x - q) + q) by ring. eapply Rle_trans; [apply Rabs_triang|]. lra.
Qed.
(** One more operation: [r] the result, near a multiple c of x. *)
Lemma rel_step k t c (x r : float) q : rel k t x q -> 0 <= k <= 62 -> 0 <= t -> finite r -> R_of r = rnd (R_of x * c) ->
  rel (k + 2) (2 * (t * Rabs c) + eta) r (q * c).
Proof.
  intros Rx K T Fr E. destruct Rx as [Fx H]. split; [exact Fr|]. pose proof u_pos as U. pose proof u_8192 as U8. pose proof eta_pos.
  pose proof (rnd_fine (R_of x * c)) as RF. rewrite <- E in RF.
  replace (R_of r - q * c) with ((R_of r - R_of x * c) + (R_of x - q) * c) by ring. eapply Rle_trans; [apply Rabs_triang|].
  rewrite (Rabs_mult _ c), (Rabs_mult q c). pose proof (Rabs_pos c) as C0. pose proof (Rabs_pos q) as Q0.
  assert (H1 : Rabs (R_of x - q) * Rabs c <= (k * u * Rabs q + t) * Rabs c) by (apply Rmult_le_compat_r; assumption).
  assert (H2 : Rabs (R_of x) <= Rabs q + (k * u * Rabs q + t)).
  { replace (R_of x) with (q + (R_of x - q)) by ring. eapply Rle_trans; [apply Rabs_triang|]. lra. }
  assert (H3 : u * Rabs (R_of x * c) <= u * ((Rabs q + (k * u * Rabs q + t)) * Rabs c)).
  { rewrite Rabs_mult. apply Rmult_le_compat_l; [lra|]. apply Rmult_le_compat_r; assumption. }
  set (P := Rabs q * Rabs c) in *. assert (P0 : 0 <= P) by (apply Rmult_le_pos; assumption). assert (TC : 0 <= t * Rabs c) by (apply Rmult_le_pos; assumption).
  assert (KU : k * u <= 1) by (apply Rle_trans with (62 * u); [apply Rmult_le_compat_r; lra|lra]).
  assert (H4 : u * (k * u * P) <= u * P). { apply Rmult_le_compat_l; [lra|]. pose proof (Rmult_le_compat_r P (k * u) 1). lra. }
  assert (H5 : u * (t * Rabs c) <= t * Rabs c) by (pose proof (Rmult_le_compat_r (t * Rabs c) u 1); lra).
  replace ((Rabs q + (k * u * Rabs q + t)) * Rabs c) with (P + (k * u * P) + t * Rabs c) in H3 by (unfold P; ring).
  replace ((k * u * Rabs q + t) * Rabs c) with (k * u * P + t * Rabs c) in H1 by (unfold P; ring). lra.
Qed.
Lemma mul_rel k t x y q : rel k t x q -> 0 <= k <= 62 -> 0 <= t -> finite y -> 2 * Rabs (q * R_of y) + t * Rabs (R_of y) <= bpow radix2 1001 ->
  rel (k + 2) (2 * (t * Rabs (R_of y)) + eta) (x * y)%float (q * R_of y).
Proof.
  intros Rx K T Fy L. pose proof (rel_size _ _ _ _ Rx ltac:(lra)) as S.
  destruct (mul_rnd x y) as [F E]; [apply Rx|exact Fy| |].
  { eapply Rle_trans; [|exact L]. rewrite !Rabs_mult. apply Rle_trans with ((2 * Rabs q + t) * Rabs (R_of y)); [|lra].
    apply Rmult_le_compat_r; [apply Rabs_pos|exact S]. }
  now apply (rel_step k t (R_of y) x).
Qed.
Lemma div_rel k t x y q : rel k t x q -> 0 <= k <= 62 -> 0 <= t -> 1 <= R_of y -> 2 * Rabs q + t <= bpow radix2 1001 ->
  rel (k + 2) (2 * t + eta) (x / y)%float (q / R_of y).
Proof.
  intros Rx K T Y L. pose proof (rel_size _ _ _ _ Rx ltac:(lra)) as S.
  assert (I : 0 < / R_of y <= 1) by (split; [apply Rinv_0_lt_compat; lra|rewrite <- Rinv_1; apply Rinv_le_contravar; lra]).
  destruct (div_rnd x y) as [F E]; [apply Rx|lra| |].
  { unfold Rdiv. rewrite Rabs_mult, (Rabs_right (/ R_of y)) by lra. pose proof (Rmult_le_compat_l (Rabs (R_of x)) (/ R_of y) 1 (Rabs_pos _)). lra. }
  unfold Rdiv in *. pose proof (rel_step k t (/ R_of y) x _ q Rx K T F E) as H. eapply rel_mono; [exact H|lra|].
  rewrite Rabs_right by lra. pose proof (Rmult_le_compat_l t (/ R_of y) 1 T). lra.
Qed.

(** ** Chains of operations *)
Definition tiny : R := bpow radix2 (-160).
Lemma tiny_pos : 0 < tiny. Proof. apply bpow_gt_0. Qed.
Lemma tiny_u : tiny <= u. Proof. apply bpow_le. lia. Qed.
Definition big : R := bpow radix2 900.
Lemma eta_tiny (c : R) : 0 <= c <= bpow radix2 900 -> 4 * (eta * c) + 3 * eta <= tiny.
Proof.
  intros [C0 C]. pose proof eta_pos. assert (eta * c <= eta * bpow radix2 900) by (apply Rmult_le_compat_l; lra).
  assert (E1 : eta * bpow radix2 900 = bpow radix2 (-175)) by (unfold eta; rewrite <- bpow_plus; reflexivity).
  assert (E2 : eta <= bpow radix2 (-175)) by (apply bpow_le; lia). assert (E3 : 8 * bpow radix2 (-175) <= tiny).
  { unfold tiny. change 8 with (bpow radix2 3). rewrite <- bpow_plus. apply bpow_le. lia. }
  pose proof (bpow_gt_0 radix2 (-175)). lra.
Qed.
Lemma int32 n : (Z.abs n <= 2 ^ 31)%Z -> finite (Float64.ofZ n) /\ R_of (Float64.ofZ n) = IZR n /\ Rabs (IZR n) <= bpow radix2 31.
Proof.
  intros H. destruct (ofZ_exact n ltac:(lia)) as [F E]. split; [exact F|]. split; [exact E|]. rewrite <- abs_IZR. change (bpow radix2 31) with (IZR (2 ^ 31)). now apply IZR_le.
Qed.
Lemma chain_range q y : Rabs (q * y) <= bpow radix2 960 -> Rabs y <= bpow radix2 900 -> 2 * Rabs (q * y) + eta * Rabs y <= bpow radix2 1001.
Proof.
  intros H1 H2. pose proof eta_pos. assert (eta * Rabs y <= 1 * bpow radix2 900). { apply Rmult_le_compat; try lra; [apply Rabs_pos|]. apply (bpow_le radix2 (-1075) 0). lia. }
  pose proof (bpow_gt_0 radix2 960). assert (bpow radix2 900 <= bpow radix2 960) by (apply bpow_le; lia). assert (4 * bpow radix2 960 <= bpow radix2 1001); [|lra].
  change 4 with (bpow radix2 2). rewrite <- bpow_plus. apply bpow_le. lia.
Qed.
Lemma small_range q : Rabs q <= bpow radix2 960 -> 2 * Rabs q + 1 <= bpow radix2 1001.
Proof.
  intros H. assert (1 <= bpow radix2 960) by (apply (bpow_le radix2 0 960); lia). assert (4 * bpow radix2 960 <= bpow radix2 1001); [|lra].
  change 4 with (bpow radix2 2). rewrite <- bpow_plus. apply bpow_le. lia.
Qed.
(** x / c * y / d, for exact x and y. *)
Lemma chain (x y c d : float) a b cc dd : finite x -> R_of x = a -> finite y -> R_of y = b -> R_of c = cc -> R_of d = dd -> 1 <= cc -> 1 <= dd ->
  Rabs a <= bpow radix2 900 -> Rabs b <= bpow radix2 900 -> Rabs (a * b) <= bpow radix2 960 -> rel 6 tiny (x / c * y / d)%float (a / cc * b / dd).
Proof.
  intros Fx <- Fy <- <- <- C D La Lb Lab. pose proof eta_pos as E0. pose proof (Rabs_pos (R_of y)) as Y0.
  assert (E1 : 4 * (eta * Rabs (R_of y)) + 3 * eta <= tiny) by (apply eta_tiny; lra).
  assert (ey : 0 <= eta * Rabs (R_of y)) by (apply Rmult_le_pos; lra).
  assert (T1 : tiny <= 1) by (apply (bpow_le radix2 (-160) 0); lia).
  assert (IC : 0 < / R_of c <= 1) by (split; [apply Rinv_0_lt_compat; lra|rewrite <- Rinv_1; apply Rinv_le_contravar; lra]).
  assert (AB : Rabs (R_of x / R_of c * R_of y) <= bpow radix2 960).
  { replace (R_of x / R_of c * R_of y) with (R_of x * R_of y * / R_of c) by (field; lra). rewrite Rabs_mult, (Rabs_right (/ R_of c)) by lra.
    pose proof (Rmult_le_compat_l (Rabs (R_of x * R_of y)) (/ R_of c) 1 (Rabs_pos _)). lra. }
  assert (S1 : rel 2 eta (x / c)%float (R_of x / R_of c)).
  { eapply rel_mono; [eapply (div_rel 0 0); [apply rel_exact; auto|lra|lra|lra|]|lra|lra].
    assert (bpow radix2 900 <= bpow radix2 960) by (apply bpow_le; lia). pose proof (small_range (R_of x)). lra. }
  assert (S2 : rel 4 (2 * (eta * Rabs (R_of y)) + eta) (x / c * y)%float (R_of x / R_of c * R_of y)).
  { eapply rel_mono; [eapply (mul_rel 2 eta); [exact S1|lra|lra|exact Fy|]|lra|lra]. now apply chain_range. }
  eapply rel_mono; [eapply (div_rel 4); [exact S2|lra|lra|exact D|]|lra|lra].
  pose proof (small_range _ AB). lra.
Qed.

(** ** Sums *)
Section Sums.
Variable B : R.
Hypothesis B1 : 1 <= B.
Hypothesis BM : B <= bpow radix2 900.
(** [x] is [q] up to [e] roundings of [B]. *)
Definition off (e : R) (x : float) (q : R) : Prop := finite x /\ Rabs (R_of x - q) <= e * (B * u).
Lemma Bu : u <= B * u. Proof. pose proof u_pos. pose proof (Rmult_le_compat_r u 1 B). lra. Qed.
Lemma rel_off k x q m : rel k tiny x q -> 0 <= k -> Rabs q <= m * B -> off (k * m + 1) x q.
Proof.
  intros [F H] K L. split; [exact F|]. eapply Rle_trans; [exact H|]. pose proof u_pos. pose proof tiny_u. pose proof Bu.
  assert (k * u * Rabs q <= k * u * (m * B)) by (apply Rmult_le_compat_l; [apply Rmult_le_pos|]; lra). lra.
Qed.
Lemma off_mono e e' x q : off e x q -> e <= e' -> off e' x q.
Proof. intros [F H] L. split; [exact F|]. eapply Rle_trans; [exact H|]. pose proof u_pos. pose proof Bu. apply Rmult_le_compat_r; lra. Qed.
Lemma off_size e x q m : off e x q -> e <= 200 -> Rabs q <= m * B -> Rabs (R_of x) <= (m + 1) * B.
Proof.
  intros [F H] L Q. pose proof u_8192. pose proof u_pos. pose proof Bu. assert (e * (B * u) <= 200 * (B * u)) by (apply Rmult_le_compat_r; lra).
  assert (B * u <= B * (/ 8192)) by (apply Rmult_le_compat_l; lra).
  replace (R_of x) with ((R_of x - q) + q) by ring. eapply Rle_trans; [apply Rabs_triang|]. lra.
Qed.
Lemma off_add e f x y p q : off e x p -> off f y q -> e <= 90 -> f <= 90 -> Rabs p <= 2 * B -> Rabs q <= 2 * B -> Rabs (p + q) <= 2 * B ->
  off (e + f + 3) (x + y)%float (p + q).
Proof.
  intros Ox Oy E F P Q PQ. pose proof (off_size _ _ _ _ Ox ltac:(lra) P) as Sx. pose proof (off_size _ _ _ _ Oy ltac:(lra) Q) as Sy.
  destruct Ox as [Fx Hx], Oy as [Fy Hy]. pose proof u_pos. pose proof u_8192. pose proof Bu.
  assert (FF : finite (x + y)%float).
  { apply add_in_range; auto. rewrite p1023. assert (8 * bpow radix2 900 <= bpow radix2 1023).
    { change 8 with (bpow radix2 3). rewrite <- bpow_plus. apply bpow_le. lia. } lra. }
  split; [exact FF|]. pose proof (add_error x y FF) as AE.
  assert (SS : Rabs (R_of x + R_of y) <= 3 * B).
  { replace (R_of x + R_of y) with ((R_of x - p) + (R_of y - q) + (p + q)) by ring. eapply Rle_trans; [apply Rabs_triang|].
    pose proof (Rabs_triang (R_of x - p) (R_of y - q)). assert (e * (B * u) <= 90 * (B * u)) by (apply Rmult_le_compat_r; lra).
    assert (f * (B * u) <= 90 * (B * u)) by (apply Rmult_le_compat_r; lra). assert (B * u <= B * (/ 8192)) by (apply Rmult_le_compat_l; lra). lra. }
  assert (u * Rabs (R_of x + R_of y) <= u * (3 * B)) by (apply Rmult_le_compat_l; lra).
  replace (R_of (x + y)%float - (p + q)) with ((R_of (x + y)%float - (R_of x + R_of y)) + ((R_of x - p) + (R_of y - q))) by ring.
  eapply Rle_trans; [apply Rabs_triang|]. pose proof (Rabs_triang (R_of x - p) (R_of y - q)). lra.
Qed.
Lemma off_opp e x q : off e x q -> off e (- x)%float (- q).
Proof.
  intros [F H]. unfold off. rewrite opp_equiv, is_finite_Bopp, B2R_Bopp. split; [exact F|]. replace (- R_of x - - q) with (- (R_of x - q)) by ring. now rewrite Rabs_Ropp.
Qed.
Lemma off_sub e f x y p q : off e x p -> off f y q -> e <= 90 -> f <= 90 -> Rabs p <= 2 * B -> Rabs q <= 2 * B -> Rabs (p - q) <= 2 * B ->
  off (e + f + 3) (x - y)%float (p - q).
Proof. intros. rewrite sub_opp. apply off_add; auto; [now apply off_opp|now rewrite Rabs_Ropp]. Qed.
Lemma off_half e x (y : float) q : off e x q -> 0 <= e <= 90 -> Rabs q <= 2 * B -> R_of y = 2 -> off (e + 4) (x / y)%float (q / 2).
Proof.
  intros Ox E Q Y. pose proof (off_size _ _ _ _ Ox ltac:(lra) Q) as Sx. destruct Ox as [Fx Hx]. pose proof u_pos. pose proof Bu. pose proof (Rabs_pos (R_of x)).
  assert (A : Rabs (R_of x / 2) <= 3 * B) by (unfold Rdiv; rewrite Rabs_mult, (Rabs_right (/ 2)) by lra; lra).
  destruct (div_near x y Fx) as [F D]; rewrite ?Y in *; [lra| |].
  { eapply Rle_trans; [exact A|]. assert (4 * bpow radix2 900 <= bpow radix2 1001); [|lra]. change 4 with (bpow radix2 2). rewrite <- bpow_plus. apply bpow_le. lia. }
  split; [exact F|]. replace (R_of (x / y)%float - q / 2) with ((R_of (x / y)%float - R_of x / 2) + (R_of x - q) / 2) by field.
  eapply Rle_trans; [apply Rabs_triang|]. unfold Rdiv at 2. rewrite (Rabs_mult _ (/ 2)), (Rabs_right (/ 2)) by lra.
  assert (u * Rabs (R_of x / 2) <= u * (3 * B)) by (apply Rmult_le_compat_l; lra). assert (0 <= e * (B * u)) by (apply Rmult_le_pos; lra). lra.
Qed.
End Sums.
