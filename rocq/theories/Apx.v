(** float64 results near real numbers: how errors add up over sums, maxima and
    products by constants. *)
From Coq Require Import ZArith String List Bool Reals Lia Lra Psatz.
From Flocq Require Import Core.Core Relative Plus_error IEEE754.BinarySingleNaN IEEE754.PrimFloat.
From Verif Require Import Arith Float64Facts PropError PropRows.
From Coq Require Import Floats Lra.
Local Open Scope R_scope.

(** [x] is within [m] times N B / 2^53 of [q], which is at most [m B] in absolute
    value. *)
Definition ap (B N m : R) (x : float) (q : R) : Prop :=
  finite x /\ 0 <= m /\ Rabs q <= m * B /\ Rabs (R_of x - q) <= m * (N * B * u).

Lemma u_tiny : u * bpow radix2 52 = / 2.
Proof. unfold u. rewrite <- bpow_plus. reflexivity. Qed.
Lemma u_8192 : u <= / 8192.
Proof. unfold u. change (/ 8192) with (bpow radix2 (-13)). apply bpow_le. lia. Qed.
Lemma p1023 : 2 ^ 1023 = bpow radix2 1023. Proof. symmetry. apply (bpow_nat 1023). Qed.

(** One rounding. *)
Definition rnd (z : R) : R := round radix2 (FLT_exp (3 - 1024 - 53) 53) (Znearest (fun x => negb (Z.even x))) z.
Lemma rnd_error z : Rabs (rnd z - z) <= u * Rabs z + u.
Proof.
  destruct (error_N_FLT radix2 (3 - 1024 - 53) 53 eq_refl (fun x => negb (Z.even x)) z) as (eps & eta & E1 & E2 & _ & E).
  assert (UU : / 2 * bpow radix2 (- (53) + 1) = u).
  { unfold u. rewrite bpow_plus. change (bpow radix2 1) with 2. change (bpow radix2 (- (53))) with (bpow radix2 (-53)). lra. }
  rewrite UU in E1.
  assert (ET : Rabs eta <= u). { eapply Rle_trans; [exact E2|]. unfold u. change (/ 2) with (bpow radix2 (-1)). rewrite <- bpow_plus. apply bpow_le. lia. }
  unfold rnd. rewrite E. replace (z * (1 + eps) + eta - z) with (eps * z + eta) by ring. eapply Rle_trans; [apply Rabs_triang|]. rewrite Rabs_mult.
  assert (Rabs eps * Rabs z <= u * Rabs z) by (apply Rmult_le_compat_r; [apply Rabs_pos|assumption]). lra.
Qed.
Lemma rnd_range z : Rabs z <= bpow radix2 1001 -> Rabs (rnd z) < bpow radix2 FloatOps.emax.
Proof.
  intros H. pose proof (rnd_error z) as E. assert (Rabs (rnd z) <= Rabs (rnd z - z) + Rabs z). { replace (rnd z) with ((rnd z - z) + z) at 1 by ring. apply Rabs_triang. }
  pose proof u_pos. pose proof u_8192. pose proof (Rabs_pos z). assert (u * Rabs z <= 1 * Rabs z) by (apply Rmult_le_compat_r; lra).
  assert (2 * bpow radix2 1001 + 1 < bpow radix2 FloatOps.emax); [|lra].
  change (bpow radix2 FloatOps.emax) with (bpow radix2 (1022 + 2)). rewrite (bpow_plus radix2 1022 2). change (bpow radix2 2) with 4.
  assert (bpow radix2 1001 <= bpow radix2 1022) by (apply bpow_le; lia). assert (1 <= bpow radix2 1022) by (apply (bpow_le radix2 0 1022); lia). lra.
Qed.
Lemma mul_near x y : finite x -> finite y -> Rabs (R_of x * R_of y) <= bpow radix2 1001 ->
  finite (x * y)%float /\ Rabs (R_of (x * y)%float - R_of x * R_of y) <= u * Rabs (R_of x * R_of y) + u.
Proof.
  intros Fx Fy H. rewrite mul_equiv.
  pose proof (Bmult_correct FloatOps.prec FloatOps.emax Hprec Hmax mode_NE (Prim2B x) (Prim2B y)) as BC. cbv zeta in BC.
  change (SpecFloat.fexp FloatOps.prec FloatOps.emax) with (FLT_exp (3 - 1024 - 53) 53) in BC. cbn [round_mode] in BC.
  rewrite Rlt_bool_true in BC by (apply rnd_range, H).
  destruct BC as (C1 & C2 & _). rewrite C1, C2, Fx, Fy. split; [reflexivity|apply rnd_error].
Qed.
Lemma div_near x y : finite x -> R_of y <> 0 -> Rabs (R_of x / R_of y) <= bpow radix2 1001 ->
  finite (x / y)%float /\ Rabs (R_of (x / y)%float - R_of x / R_of y) <= u * Rabs (R_of x / R_of y) + u.
Proof.
  intros Fx Ny H. rewrite div_equiv.
  pose proof (Bdiv_correct FloatOps.prec FloatOps.emax Hprec Hmax mode_NE (Prim2B x) (Prim2B y) Ny) as BC. cbv zeta in BC.
  change (SpecFloat.fexp FloatOps.prec FloatOps.emax) with (FLT_exp (3 - 1024 - 53) 53) in BC. cbn [round_mode] in BC.
  rewrite Rlt_bool_true in BC by (apply rnd_range, H).
  destruct BC as (C1 & C2 & _). rewrite C1, C2, Fx. split; [reflexivity|apply rnd_error].
Qed.
Lemma mul_comm_R x y : finite x -> finite y -> finite (x * y)%float -> finite (y * x)%float /\ R_of (y * x)%float = R_of (x * y)%float.
Proof.
  intros Fx Fy. rewrite !mul_equiv.
  pose proof (Bmult_correct FloatOps.prec FloatOps.emax Hprec Hmax mode_NE (Prim2B x) (Prim2B y)) as C1. cbv zeta in C1.
  pose proof (Bmult_correct FloatOps.prec FloatOps.emax Hprec Hmax mode_NE (Prim2B y) (Prim2B x)) as C2. cbv zeta in C2.
  rewrite (Rmult_comm (R_of y) (R_of x)) in C2. destruct (Rlt_bool _ _).
  - destruct C1 as (A1 & A2 & _), C2 as (D1 & D2 & _). rewrite A1, D1, D2, Fx, Fy. tauto.
  - intros F. exfalso. destruct (Bmult mode_NE (Prim2B x) (Prim2B y)); try discriminate F; cbn in C1; unfold binary_overflow in C1; cbn in C1; discriminate C1.
Qed.
Lemma rmax_lip a b c d e : Rabs (a - c) <= e -> Rabs (b - d) <= e -> Rabs (Rmax a b - Rmax c d) <= e.
Proof.
  intros H1 H2. apply Rabs_le. apply Rabs_le_inv in H1. apply Rabs_le_inv in H2.
  unfold Rmax. destruct (Rle_dec a b), (Rle_dec c d); lra.
Qed.
Lemma zero_add_R x z : finite x -> finite z -> R_of z = 0 -> finite (x + z)%float /\ R_of (x + z)%float = R_of x.
Proof.
  intros F G Z. rewrite add_equiv.
  pose proof (Bplus_correct FloatOps.prec FloatOps.emax Hprec Hmax mode_NE (Prim2B x) (Prim2B z) F G) as B.
  rewrite Z, Rplus_0_r in B. rewrite round_generic in B; [|apply valid_rnd_N|apply generic_format_B2R].
  rewrite Rlt_bool_true in B by apply abs_B2R_lt_emax. tauto.
Qed.
Lemma add_zero_R x z : finite x -> finite z -> R_of z = 0 -> finite (z + x)%float /\ R_of (z + x)%float = R_of x.
Proof.
  intros F G Z. rewrite add_equiv.
  pose proof (Bplus_correct FloatOps.prec FloatOps.emax Hprec Hmax mode_NE (Prim2B z) (Prim2B x) G F) as B.
  rewrite Z, Rplus_0_l in B. rewrite round_generic in B; [|apply valid_rnd_N|apply generic_format_B2R].
  rewrite Rlt_bool_true in B by apply abs_B2R_lt_emax. tauto.
Qed.
Lemma sub_same a b c : finite a -> finite b -> finite c -> R_of b = R_of a -> finite (a - c)%float -> finite (b - c)%float /\ R_of (b - c)%float = R_of (a - c)%float.
Proof.
  intros Fa Fb Fc V. rewrite !sub_equiv.
  pose proof (Bminus_correct FloatOps.prec FloatOps.emax Hprec Hmax mode_NE (Prim2B a) (Prim2B c) Fa Fc) as C1.
  pose proof (Bminus_correct FloatOps.prec FloatOps.emax Hprec Hmax mode_NE (Prim2B b) (Prim2B c) Fb Fc) as C2.
  rewrite V in C2. destruct (Rlt_bool _ _).
  - destruct C1 as (A1 & A2 & _), C2 as (D1 & D2 & _). rewrite A1, D1. auto.
  - intros F. exfalso. destruct C1 as [C1 _]. destruct (Bminus mode_NE (Prim2B a) (Prim2B c)); try discriminate F; cbn in C1; unfold binary_overflow in C1; cbn in C1; discriminate C1.
Qed.
(** A constant known to one rounding. *)
Definition const (c : float) (k : R) : Prop := finite c /\ Rabs (R_of c - k) <= 2 * u.
Lemma const_exact c k : finite c -> R_of c = k -> const c k.
Proof. intros F <-. split; [exact F|]. replace (R_of c - R_of c) with 0 by ring. rewrite Rabs_R0. pose proof u_pos. lra. Qed.
Lemma const_frat n d : (Z.abs n < 2 ^ 53)%Z -> (0 < d < 2 ^ 53)%Z -> Rabs (IZR n / IZR d) <= 1 -> const (@frat float64 n d) (IZR n / IZR d).
Proof.
  intros Hn Hd H. unfold frat. cbn [fofZ fdiv float64]. destruct (ofZ_exact n Hn) as [Fn En]. destruct (ofZ_exact d ltac:(lia)) as [Fd Ed].
  assert (D0 : R_of (Float64.ofZ d) <> 0) by (rewrite Ed; apply IZR_neq; lia).
  destruct (div_near (Float64.ofZ n) (Float64.ofZ d) Fn D0) as [F E].
  { rewrite En, Ed. eapply Rle_trans; [exact H|]. apply (bpow_le radix2 0 1001). lia. }
  rewrite En, Ed in E. split; [exact F|]. pose proof u_pos. assert (u * Rabs (IZR n / IZR d) <= u * 1) by (apply Rmult_le_compat_l; lra).
  lra.
Qed.

Section Near.
Variables B N : R.
Hypothesis B1 : 1 <= B.
Hypothesis BM : B <= bpow radix2 900.
Hypothesis N1 : 1 <= N.
Hypothesis NM : N <= bpow radix2 26.
Notation ap := (ap B N).
Notation E := (N * B * u).

Lemma E_pos : 0 <= E.
Proof. pose proof u_pos. apply Rmult_le_pos; [apply Rmult_le_pos; lra|lra]. Qed.
Lemma uE : u <= E.
Proof. pose proof u_pos. assert (1 <= N * B) by (replace 1 with (1 * 1) by ring; apply Rmult_le_compat; lra). assert (1 * u <= N * B * u) by (apply Rmult_le_compat_r; lra). lra. Qed.
Lemma NNu : N * (N * u) <= / 2.
Proof.
  rewrite <- u_tiny. pose proof u_pos. assert (N * N <= bpow radix2 26 * bpow radix2 26) by (apply Rmult_le_compat; lra).
  rewrite <- bpow_plus in H0. change (26 + 26)%Z with 52%Z in H0. assert (u * (N * N) <= u * bpow radix2 52) by (apply Rmult_le_compat_l; lra). lra.
Qed.
Lemma mE m : 0 <= m -> m <= N -> m * E <= B / 2.
Proof.
  intros M L. pose proof NNu. pose proof u_pos. assert (m * (N * u) <= N * (N * u)) by (apply Rmult_le_compat_r; [apply Rmult_le_pos; lra|lra]).
  assert (B * (m * (N * u)) <= B * (/ 2)) by (apply Rmult_le_compat_l; lra). replace (m * E) with (B * (m * (N * u))) by ring. lra.
Qed.
Lemma ap_mono n m x q : ap n x q -> n <= m -> ap m x q.
Proof.
  intros (F & P & Q & R) L. pose proof E_pos. split; [exact F|]. split; [lra|]. split.
  - eapply Rle_trans; [exact Q|]. apply Rmult_le_compat_r; lra.
  - eapply Rle_trans; [exact R|]. apply Rmult_le_compat_r; lra.
Qed.
Lemma ap_eq n x y q : ap n x q -> finite y -> R_of y = R_of x -> ap n y q.
Proof. intros (F & P & Q & R) G H. unfold Apx.ap. rewrite H. tauto. Qed.
Lemma ap_val n x q p : ap n x q -> q = p -> ap n x p.
Proof. now intros H <-. Qed.
Lemma ap_ge n x q : ap n x q -> 0 <= n. Proof. intros H. apply H. Qed.
Lemma ap_fin n x q : ap n x q -> finite x. Proof. intros H; apply H. Qed.
Lemma ap_exact x q m : finite x -> R_of x = q -> Rabs q <= m * B -> 0 <= m -> ap m x q.
Proof.
  intros F <- H M. split; [exact F|]. split; [lra|]. split; [lra|]. replace (R_of x - R_of x) with 0 by ring. rewrite Rabs_R0.
  apply Rmult_le_pos; [lra|apply E_pos].
Qed.
Lemma ap_zero : ap 0 0%float 0.
Proof. apply ap_exact; try apply zero_int; [|lra]. rewrite Rabs_R0. lra. Qed.
Lemma ap_size m x q : ap m x q -> m <= N -> Rabs (R_of x) <= (m + 1) * B.
Proof.
  intros (F & P & Q & R) L. pose proof (mE m P L).
  replace (R_of x) with ((R_of x - q) + q) by ring. eapply Rle_trans; [apply Rabs_triang|]. lra.
Qed.
Lemma big_ok : 8 * (N * B) <= bpow radix2 1000.
Proof.
  assert (N * B <= bpow radix2 26 * bpow radix2 900) by (apply Rmult_le_compat; lra). rewrite <- bpow_plus in H.
  change (26 + 900)%Z with 926%Z in H. assert (8 * bpow radix2 926 <= bpow radix2 1000); [|lra].
  change 8 with (bpow radix2 3). rewrite <- bpow_plus. apply bpow_le. lia.
Qed.
Lemma add_step x y a b : finite x -> finite y -> Rabs (R_of x) <= a * B -> Rabs (R_of y) <= b * B -> a + b <= N ->
  finite (x + y)%float /\ Rabs (R_of (x + y)%float - (R_of x + R_of y)) <= E.
Proof.
  intros Fx Fy Ha Hb L. pose proof u_pos.
  assert (AB : a * B + b * B <= N * B) by (rewrite <- Rmult_plus_distr_r; apply Rmult_le_compat_r; lra).
  assert (F : finite (x + y)%float).
  { apply add_in_range; auto. rewrite p1023. pose proof big_ok. assert (bpow radix2 1000 <= bpow radix2 1023) by (apply bpow_le; lia).
    pose proof (Rabs_pos (R_of x)). pose proof (Rabs_pos (R_of y)). lra. }
  split; [exact F|]. eapply Rle_trans; [apply (add_error x y F)|]. pose proof (Rabs_triang (R_of x) (R_of y)).
  assert (u * Rabs (R_of x + R_of y) <= u * (N * B)) by (apply Rmult_le_compat_l; lra). lra.
Qed.

Lemma ap_add n m x y p q : ap n x p -> ap m y q -> n + m + 2 <= N -> ap (n + m + 1) (x + y)%float (p + q).
Proof.
  intros Ax Ay L. pose proof (ap_ge _ _ _ Ax) as Pn. pose proof (ap_ge _ _ _ Ay) as Pm.
  assert (Sx : Rabs (R_of x) <= (n + 1) * B) by (apply (ap_size _ _ _ Ax); lra).
  assert (Sy : Rabs (R_of y) <= (m + 1) * B) by (apply (ap_size _ _ _ Ay); lra).
  destruct Ax as (Fx & _ & Qx & Ex), Ay as (Fy & _ & Qy & Ey).
  destruct (add_step x y (n + 1) (m + 1) Fx Fy Sx Sy ltac:(lra)) as [F EE].
  split; [exact F|]. split; [lra|]. pose proof E_pos.
  split; [eapply Rle_trans; [apply Rabs_triang|]; lra|].
  replace (R_of (x + y)%float - (p + q)) with ((R_of (x + y)%float - (R_of x + R_of y)) + ((R_of x - p) + (R_of y - q))) by ring.
  eapply Rle_trans; [apply Rabs_triang|]. pose proof (Rabs_triang (R_of x - p) (R_of y - q)). lra.
Qed.
Lemma ap_opp n x q : ap n x q -> ap n (- x)%float (- q).
Proof.
  intros (F & P & Q & R). unfold Apx.ap. rewrite opp_equiv, is_finite_Bopp, B2R_Bopp. split; [exact F|]. split; [exact P|]. rewrite Rabs_Ropp. split; [exact Q|].
  replace (- R_of x - - q) with (- (R_of x - q)) by ring. now rewrite Rabs_Ropp.
Qed.
Lemma ap_sub n m x y p q : ap n x p -> ap m y q -> n + m + 2 <= N -> ap (n + m + 1) (x - y)%float (p - q).
Proof. intros Ax Ay L. rewrite sub_opp. apply ap_add; [assumption|now apply ap_opp|assumption]. Qed.
Lemma ap_max n m x y p q : ap n x p -> ap m y q -> ap (Rmax n m) (Float64.max x y) (Rmax p q).
Proof.
  intros Ax Ay. apply (ap_mono n (Rmax n m)) in Ax; [|apply Rmax_l]. apply (ap_mono m (Rmax n m)) in Ay; [|apply Rmax_r].
  destruct Ax as (Fx & P & Qx & Ex), Ay as (Fy & _ & Qy & Ey). destruct (max_finite x y Fx Fy) as [F V].
  split; [exact F|]. split; [exact P|]. rewrite V. split.
  - unfold Rmax at 1. destruct (Rle_dec p q); assumption.
  - now apply rmax_lip.
Qed.
Lemma ap_max_sum n m x y p q : ap n x p -> ap m y q -> ap (n + m) (Float64.max x y) (Rmax p q).
Proof.
  intros Ax Ay. pose proof (ap_ge _ _ _ Ax). pose proof (ap_ge _ _ _ Ay). eapply ap_mono; [eapply ap_max; eassumption|].
  unfold Rmax. destruct (Rle_dec n m); lra.
Qed.
(** A summand that is exactly zero and left out. *)
Lemma ap_skip n m x d p q : ap n x p -> ap m d q -> R_of d = 0 -> ap (n + m) x (p + q).
Proof.
  intros (F & P & Q & R) (F' & P' & Q' & R') Z. split; [exact F|]. split; [lra|]. split; [eapply Rle_trans; [apply Rabs_triang|]; lra|].
  rewrite Z in R'. replace (R_of x - (p + q)) with ((R_of x - p) + (0 - q)) by ring. eapply Rle_trans; [apply Rabs_triang|]. lra.
Qed.
(** x + (z + h) - (h - y): the error of [h] cancels. *)
Lemma ap_cancel a b c d x z h y p q r s : ap a x p -> ap d z s -> ap b h q -> ap c y r -> a + d + b + b + c + 8 <= N ->
  ap (a + d + c + 4) (x + (z + h) - (h - y))%float (p + s + r).
Proof.
  intros Ax Az Ah Ay L. pose proof (ap_ge _ _ _ Ax). pose proof (ap_ge _ _ _ Az). pose proof (ap_ge _ _ _ Ah). pose proof (ap_ge _ _ _ Ay). pose proof E_pos.
  assert (Sx : Rabs (R_of x) <= (a + 1) * B) by (apply (ap_size _ _ _ Ax); lra).
  assert (Sz : Rabs (R_of z) <= (d + 1) * B) by (apply (ap_size _ _ _ Az); lra).
  assert (Sh : Rabs (R_of h) <= (b + 1) * B) by (apply (ap_size _ _ _ Ah); lra).
  assert (Sy : Rabs (R_of y) <= (c + 1) * B) by (apply (ap_size _ _ _ Ay); lra).
  assert (A0 : ap (d + b + 1) (z + h)%float (s + q)) by (apply ap_add; auto; lra).
  assert (A1 : ap (a + (d + b + 1) + 1) (x + (z + h))%float (p + (s + q))) by (apply ap_add; auto; lra).
  assert (A2 : ap (b + c + 1) (h - y)%float (q - r)) by (apply ap_sub; auto; lra).
  assert (S0 : Rabs (R_of (z + h)%float) <= (d + b + 2) * B) by (replace (d + b + 2) with (d + b + 1 + 1) by ring; apply (ap_size _ _ _ A0); lra).
  assert (S1 : Rabs (R_of (x + (z + h))%float) <= (a + d + b + 3) * B) by (replace (a + d + b + 3) with (a + (d + b + 1) + 1 + 1) by ring; apply (ap_size _ _ _ A1); lra).
  assert (S2 : Rabs (R_of (h - y)%float) <= (b + c + 2) * B) by (replace (b + c + 2) with (b + c + 1 + 1) by ring; apply (ap_size _ _ _ A2); lra).
  assert (OP : forall z : float, finite z -> finite (- z)%float /\ R_of (- z)%float = - R_of z).
  { intros v Fz. rewrite opp_equiv, is_finite_Bopp, B2R_Bopp. auto. }
  destruct (OP y (ap_fin _ _ _ Ay)) as [Fo Vo]. destruct (OP (h - y)%float (ap_fin _ _ _ A2)) as [Fo2 Vo2].
  destruct (add_step z h (d + 1) (b + 1)) as [_ E0]; try (eapply ap_fin; eassumption); try assumption; try lra.
  destruct (add_step x (z + h)%float (a + 1) (d + b + 2)) as [_ E1]; try (eapply ap_fin; eassumption); try assumption; try lra.
  destruct (add_step h (- y)%float (b + 1) (c + 1)) as [_ E2]; try (eapply ap_fin; eassumption); try assumption; try lra.
  { rewrite Vo, Rabs_Ropp. exact Sy. }
  destruct (add_step (x + (z + h))%float (- (h - y))%float (a + d + b + 3) (b + c + 2)) as [F E3]; try (eapply ap_fin; eassumption); try assumption; try lra.
  { rewrite Vo2, Rabs_Ropp. exact S2. }
  rewrite <- sub_opp in E2, E3, F. rewrite Vo in E2. rewrite Vo2 in E3.
  destruct Ax as (Fx & _ & Qx & Ex), Ay as (Fy & _ & Qy & Ey), Az as (Fz & _ & Qz & Ez).
  split; [exact F|]. split; [lra|]. split; [pose proof (Rabs_triang p s); eapply Rle_trans; [apply Rabs_triang|]; lra|].
  set (v0 := R_of (z + h)%float) in *. set (v1 := R_of (x + (z + h))%float) in *. set (v2 := R_of (h - y)%float) in *. set (v := R_of (x + (z + h) - (h - y))%float) in *.
  apply Rabs_le. apply Rabs_le_inv in E0, E1, E2, E3, Ex, Ey, Ez. lra.
Qed.

(** Products and quotients by constants. *)
Lemma mul_ap n x q c k K : ap n x q -> n + 1 <= N -> const c k -> Rabs k <= K -> 0 <= K <= 3 -> ap (K * n + 11) (x * c)%float (q * k).
Proof.
  intros Ax L (Fc & Ec) KK K3. pose proof (ap_size _ _ _ Ax ltac:(lra)) as Sx. destruct Ax as (Fx & P & Q & R). pose proof u_pos as U. pose proof u_8192 as U1.
  pose proof E_pos as EP. pose proof uE as UE. pose proof big_ok as BO.
  assert (Kc : Rabs (R_of c) <= K + 2 * u). { replace (R_of c) with ((R_of c - k) + k) by ring. eapply Rle_trans; [apply Rabs_triang|]. lra. }
  assert (NB : (n + 1) * B <= N * B) by (apply Rmult_le_compat_r; lra).
  assert (P0 : Rabs (R_of x * R_of c) <= (N * B) * 4) by (rewrite Rabs_mult; apply Rmult_le_compat; try apply Rabs_pos; lra).
  destruct (mul_near x c Fx Fc) as [F H].
  { eapply Rle_trans; [exact P0|]. assert (bpow radix2 1000 <= bpow radix2 1001) by (apply bpow_le; lia). pose proof (Rmult_le_pos N B). lra. }
  assert (KN : 0 <= K * n) by (apply Rmult_le_pos; lra).
  split; [exact F|]. split; [lra|]. split.
  { rewrite Rabs_mult. apply Rle_trans with ((n * B) * K); [apply Rmult_le_compat; try apply Rabs_pos; lra|]. lra. }
  replace (R_of (x * c)%float - q * k) with ((R_of (x * c)%float - R_of x * R_of c) + ((R_of x - q) * R_of c + q * (R_of c - k))) by ring.
  eapply Rle_trans; [apply Rabs_triang|]. pose proof (Rabs_triang ((R_of x - q) * R_of c) (q * (R_of c - k))) as T. rewrite !Rabs_mult in T.
  assert (H1 : Rabs (R_of x - q) * Rabs (R_of c) <= n * E * (K + 2 * u)) by (apply Rmult_le_compat; try apply Rabs_pos; lra).
  assert (H0 : n * E * (2 * u) <= E).
  { pose proof (mE n P ltac:(lra)) as ME. assert (n * E * (2 * u) <= B / 2 * (2 * u)) by (apply Rmult_le_compat_r; lra).
    assert (1 * (B * u) <= N * (B * u)) by (apply Rmult_le_compat_r; [apply Rmult_le_pos|]; lra). lra. }
  assert (H2 : Rabs q * Rabs (R_of c - k) <= (N * B) * (2 * u)) by (apply Rmult_le_compat; try apply Rabs_pos; lra).
  assert (H3 : u * Rabs (R_of x * R_of c) <= u * ((N * B) * 4)) by (apply Rmult_le_compat_l; lra).
  lra.
Qed.
(** A factor of at most 1 (or 3). *)
Lemma ap_small n x q c k : ap n x q -> n + 1 <= N -> const c k -> Rabs k <= 1 -> ap (n + 11) (x * c)%float (q * k).
Proof. intros Ax L C K. eapply ap_mono; [apply (mul_ap n x q c k 1); auto; lra|lra]. Qed.
Lemma ap_large n x q c k : ap n x q -> n + 1 <= N -> const c k -> Rabs k <= 3 -> ap (3 * n + 11) (x * c)%float (q * k).
Proof. intros Ax L C K. apply (mul_ap n x q c k 3); auto; lra. Qed.
Lemma ap_comm n x y q : finite x -> finite y -> ap n (x * y)%float q -> ap n (y * x)%float q.
Proof. intros Fx Fy H. destruct (mul_comm_R x y Fx Fy ltac:(apply H)) as [F V]. now apply (ap_eq _ _ _ _ H). Qed.
Lemma div_ap n x q (c : float) k : ap n x q -> n + 1 <= N -> R_of c = k -> 1 <= k -> ap (n + 2) (x / c)%float (q / k).
Proof.
  intros Ax L Ec K. pose proof (ap_size _ _ _ Ax ltac:(lra)) as Sx. destruct Ax as (Fx & P & Q & R). pose proof u_pos as U.
  pose proof E_pos as EP. pose proof uE as UE. pose proof big_ok as BO.
  assert (NB : (n + 1) * B <= N * B) by (apply Rmult_le_compat_r; lra).
  assert (I : 0 < / k <= 1) by (split; [apply Rinv_0_lt_compat; lra|rewrite <- Rinv_1; apply Rinv_le_contravar; lra]).
  assert (AD : forall z, Rabs (z / k) <= Rabs z).
  { intros z. unfold Rdiv. rewrite Rabs_mult. rewrite (Rabs_right (/ k)) by lra. pose proof (Rabs_pos z). replace (Rabs z) with (Rabs z * 1) at 2 by ring. apply Rmult_le_compat_l; lra. }
  pose proof (AD (R_of x)) as P0.
  destruct (div_near x c Fx) as [F H]; rewrite ?Ec; [lra| |].
  { eapply Rle_trans; [exact P0|]. assert (bpow radix2 1000 <= bpow radix2 1001) by (apply bpow_le; lia). pose proof (Rmult_le_pos N B). lra. }
  rewrite Ec in H. split; [exact F|]. split; [lra|]. split; [pose proof (AD q); lra|].
  replace (R_of (x / c)%float - q / k) with ((R_of (x / c)%float - R_of x / k) + (R_of x - q) / k) by (field; lra).
  eapply Rle_trans; [apply Rabs_triang|]. pose proof (AD (R_of x - q)).
  assert (u * Rabs (R_of x / k) <= u * (N * B)) by (apply Rmult_le_compat_l; lra). lra.
Qed.
End Near.
