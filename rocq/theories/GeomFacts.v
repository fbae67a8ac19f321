(** Geometry of fractions, radicals and overlines in exact arithmetic. *)
From Coq Require Import ZArith String Ascii List Bool Lia QArith Qcanon Lqa.
From Verif Require Import Arith Exact OrderLaws Box Ship ShipSpec ShipFacts ShipFacts2 PackSpec PackFacts ExactFacts PropPack PropShip
  FracSpec PropMtex GeomSpec.
Import ListNotations.
Local Open Scope string_scope.
Local Open Scope list_scope.
Local Open Scope Z_scope.

(** ** Rationals *)
Definition half : Qc := Q2Qc (1 # 2).
Lemma half_half : (half + half = 1)%Qc. Proof. apply Qc_is_canon. reflexivity. Qed.
Lemma frat_half : @frat exact 1 2 = Fin half. Proof. reflexivity. Qed.
Lemma two_exact : xofZ 2 = Fin (1 + 1)%Qc. Proof. unfold xofZ. apply f_equal, Qc_is_canon. reflexivity. Qed.
Lemma three_exact : xofZ 3 = Fin (1 + 1 + 1)%Qc. Proof. unfold xofZ. apply f_equal, Qc_is_canon. reflexivity. Qed.
Lemma five_exact : xofZ 5 = Fin (1 + 1 + 1 + 1 + 1)%Qc. Proof. unfold xofZ. apply f_equal, Qc_is_canon. reflexivity. Qed.
Lemma fadd_fin a b : fadd exact (Fin a) (Fin b) = Fin (a + b)%Qc. Proof. reflexivity. Qed.
Lemma fsub_fin a b : fsub exact (Fin a) (Fin b) = Fin (a - b)%Qc. Proof. reflexivity. Qed.
Lemma fmul_fin a b : fmul exact (Fin a) (Fin b) = Fin (a * b)%Qc. Proof. reflexivity. Qed.
Lemma fopp_fin a : fopp exact (Fin a) = Fin (- a)%Qc. Proof. reflexivity. Qed.
Lemma fin_inj a b : Fin a = Fin b -> a = b. Proof. now intros [= ->]. Qed.
Lemma fofZ_exact z : fofZ exact z = xofZ z. Proof. reflexivity. Qed.
Lemma fltb_exact a b : fltb exact (Fin a) (Fin b) = qltb a b. Proof. reflexivity. Qed.
Lemma qltb_pos a : (0 < a)%Qc -> qltb 0 a = true. Proof. apply qltb_iff. Qed.
Lemma this_plus (a b : Qc) : (this (a + b)%Qc == this a + this b)%Q. Proof. apply Qred_correct. Qed.
Lemma this_mult (a b : Qc) : (this (a * b)%Qc == this a * this b)%Q. Proof. apply Qred_correct. Qed.
Lemma this_opp (a : Qc) : (this (- a)%Qc == - this a)%Q. Proof. apply Qred_correct. Qed.
(** Linear arithmetic on Qc. *)
Ltac qc := unfold Qclt, Qcle in *; rewrite ?this_minus, ?this_plus, ?this_mult, ?this_opp in *;
  change (this 0%Qc) with 0%Q in *; change (this 1%Qc) with 1%Q in *; lra.
Lemma pos_add a b : (0 < a)%Qc -> (0 <= b)%Qc -> (0 < a + b)%Qc. Proof. intros. qc. Qed.

Ltac fins := repeat first [rewrite f0_exact | rewrite fofZ_exact | rewrite frat_half | rewrite two_exact | rewrite three_exact
  | rewrite five_exact | rewrite fadd_fin | rewrite fsub_fin | rewrite fmul_fin | rewrite fopp_fin].

Lemma fmax_fin a b : fmax exact (Fin a) (Fin b) = Fin (qmax a b).
Proof. cbn. unfold qmax. destruct (qltb b a); reflexivity. Qed.
Lemma qmax_l a b : (b <= a)%Qc -> qmax a b = a.
Proof.
  intros H. unfold qmax. destruct (qltb b a) eqn:E; [reflexivity|]. apply qltb_false in E. now apply Qcle_antisym.
Qed.
Lemma qmax_r a b : (a <= b)%Qc -> qmax a b = b.
Proof. intros H. unfold qmax. now rewrite (proj2 (qltb_false b a)). Qed.
Lemma qmax_ge a b : (a <= qmax a b)%Qc /\ (b <= qmax a b)%Qc.
Proof.
  unfold qmax. destruct (qltb b a) eqn:E.
  - apply qltb_iff in E. split; [apply Qcle_refl|now apply Qclt_le_weak].
  - apply qltb_false in E. split; [assumption|apply Qcle_refl].
Qed.

(** ** Boxes of given size *)
Lemma hpos_from gs x pre : hpos (A:=exact) gs (Fin x) pre = xadd (Fin x) (hpos gs f0 pre).
Proof. rewrite !hpos_sum, f0_exact, xadd_0_l. now rewrite xadd_assoc. Qed.

Lemma draws_one_h ox oy bx k b sh gs y (x v : xq) :
  draws (A:=exact) ox oy false bx (TL k b sh gs [glue_ss; y; glue_ss]) x v =
  hdraw ox oy bx gs x v [glue_ss] y.
Proof. rewrite draws_unfold. cbn [each app hdraw glue_ss]. rewrite app_nil_r. reflexivity. Qed.

Lemma centred_dims W x t w h d : centred (A:=exact) (Fin W) x t -> hbox_of x w h d -> (0 <= h)%Qc -> (0 <= d)%Qc ->
  exists b gs, t = TL KHList b (Fin 0) gs [glue_ss; x; glue_ss] /\ b_width b = Fin W /\ b_height b = Fin h /\ b_depth b = Fin d.
Proof.
  intros (b & gs & -> & _) (b0 & gs0 & l & -> & E1 & E2 & E3) H1 H2. cbn [hpack]. rewrite f0_exact. do 2 eexists. split; [reflexivity|].
  cbn [b_width b_height b_depth fold_left hpack_dims glue_ss d_h d_d dims0]. rewrite E2, E3. cbn [finf exact xinf orb d_h d_d].
  fins. rewrite !fmax_fin. split; [reflexivity|]. split; apply f_equal.
  - rewrite qmax_r; [ring|qc].
  - rewrite qmax_r; [ring|qc].
Qed.

Lemma centred_draws W x t w h d : centred (A:=exact) (Fin W) x t -> hbox_of x w h d ->
  (w <= W)%Qc -> (this W - this w <= 2 * billion)%Q ->
  exists off : Qc, (- (1 # 2) <= this off - this (W - w)%Qc * (1 # 2) <= (1 # 2))%Q /\
    forall ox oy bx (x0 v : Qc),
    draws ox oy false bx t (Fin x0) (Fin v) = draws ox oy false (t_box x) x (Fin (x0 + off)) (Fin v).
Proof.
  intros C (b0 & gs0 & l & -> & E1 & E2 & E3) LE BD.
  assert (WI : within (1 # 2) (hpos (t_glue t) f0 [glue_ss]) (Fin ((W - w) / (1 + 1)))).
  { eapply C45_centred_exact; [exact C|exact E1|discriminate|exact LE|exact BD]. }
  destruct WI as (a & c & Ha & [= <-] & WI). exists a. split.
  { rewrite this_half in WI. exact WI. }
  intros ox oy bx x0 v. destruct C as (b & gs & -> & _). cbn [hpack t_glue] in *. rewrite draws_one_h.
  unfold hdraw. rewrite hpos_from, Ha. cbn [fadd exact is_vlist t_box]. f_equal.
  change (Fin (v + 0)%Qc = Fin v). apply f_equal. ring.
Qed.

Lemma fltb_pinf a : fltb exact (fpinf exact) (Fin a) = false. Proof. reflexivity. Qed.
Lemma qsum_half r : (half * r + half * r = r)%Qc.
Proof. rewrite <- Qcmult_plus_distr_l, half_half. ring. Qed.
Lemma qltb_ge a b : (b <= a)%Qc -> qltb a b = false. Proof. apply qltb_false. Qed.

Lemma finf_fin q : finf exact (Fin q) = false. Proof. reflexivity. Qed.
Lemma mk_dims_eq (a a' b b' c c' : xq) (p q : list xq) : a = a' -> b = b' -> c = c' -> mk_dims (A:=exact) a b c p q = mk_dims a' b' c' p q.
Proof. now intros -> -> ->. Qed.

(** The stack of a fraction. *)
Lemma stack_box W hn dn hd dd h r bn gn ln bd gd ld st :
  b_width bn = Fin W -> b_height bn = Fin hn -> b_depth bn = Fin dn ->
  b_width bd = Fin W -> b_height bd = Fin hd -> b_depth bd = Fin dd ->
  natural_v (A:=exact) [TL KHList bn (Fin 0) gn ln; vbox f0 (fmul exact (Fin h) (fofZ exact 2));
     new_rule (fpinf exact) (fmul exact (frat 1 2) (Fin r)) (fmul exact (frat 1 2) (Fin r));
     vbox f0 (fmul exact (Fin h) (fofZ exact 2)); TL KHList bd (Fin 0) gd ld] st ->
  exists b gs, st = TL KVList b (Fin 0) gs
    [TL KHList bn (Fin 0) gn ln; vbox (Fin 0) (Fin (h + h)); new_rule PInf (Fin (half * r)) (Fin (half * r));
     vbox (Fin 0) (Fin (h + h)); TL KHList bd (Fin 0) gd ld] /\
    b_width b = Fin (qmax 0 W) /\ b_height b = Fin (hn + dn + (h + h) + r + (h + h) + hd) /\ b_depth b = Fin dd.
Proof.
  intros Wn Hn Dn Wd Hd Dd Nv.
  assert (E2 : fmul exact (Fin h) (fofZ exact 2) = Fin (h + h)) by (fins; apply f_equal; ring).
  assert (E3 : fmul exact (frat 1 2) (Fin r) = Fin (half * r)) by (fins; reflexivity).
  rewrite E2, E3 in Nv. rewrite f0_exact in Nv. change (fpinf exact) with PInf in Nv.
  set (l := [_; _; _; _; _]) in *.
  assert (VF : exists s1 s2, vfold l dims0 = LOk (mk_dims (Fin (qmax 0 W)) (Fin (hn + dn + (h + h) + r + (h + h) + hd)) (Fin dd) s1 s2)).
  { unfold l. cbn [vfold vpack_dims new_rule vbox b_width b_height b_depth new_box d_h d_d d_w dims0 d_stretch d_shrink].
    rewrite Wn, Hn, Dn, Wd, Hd, Dd. do 2 eexists. apply f_equal, mk_dims_eq; [| |reflexivity].
    - rewrite f0_exact, !finf_fin. change (finf exact PInf) with true. cbv iota. rewrite !fmax_fin. apply f_equal. destruct (qmax_ge 0 W) as [G1 G2].
      rewrite !(qmax_l (qmax 0 W)) by assumption. reflexivity.
    - rewrite f0_exact. fins. apply f_equal. rewrite <- (qsum_half r) at 3. ring. }
  destruct VF as (s1 & s2 & VF). unfold natural_v, list_of, vpack in Nv. rewrite VF in Nv.
  cbn [d_d d_h d_w] in Nv. change (fltb exact (fpinf exact) (Fin dd)) with false in Nv. cbv iota in Nv.
  injection Nv as <-. do 2 eexists. split; [reflexivity|].
  cbn [b_width b_height b_depth]. split; [reflexivity|]. split; [|reflexivity].
  apply f_equal. change (Q2Qc (inject_Z 0)) with 0%Qc. ring.
Qed.

Lemma xsub_fin a b : xsub (Fin a) (Fin b) = Fin (a - b)%Qc. Proof. reflexivity. Qed.
Lemma fltb_fin a b : fltb exact (Fin a) (Fin b) = qltb a b. Proof. reflexivity. Qed.

Lemma vis_space h : (0 < h)%Qc -> vvisible (vbox (A:=exact) (Fin 0) (Fin (h + h))) = true.
Proof.
  intros Hh. unfold vvisible. cbn [vbox t_height t_depth new_box b_height b_depth]. rewrite f0_exact. fins.
  rewrite !fltb_fin. apply andb_true_iff. split; apply qltb_iff; qc.
Qed.
Lemma vis_rule r w : vvisible (new_rule (A:=exact) w (Fin (half * r)) (Fin (half * r))) = qltb 0 r.
Proof.
  unfold vvisible. cbn [new_rule t_height t_depth new_box b_height b_depth]. rewrite f0_exact. fins. rewrite !fltb_fin, qsum_half.
  destruct (qltb 0 r) eqn:E; [|reflexivity]. apply qltb_iff in E. apply qltb_iff.
  unfold Qclt in *. rewrite this_mult. change (this half) with (1 # 2). change (this 0%Qc) with 0%Q in *. lra.
Qed.
Lemma below_space gs pre h q : (0 < h)%Qc -> below (A:=exact) gs pre (vbox (Fin 0) (Fin (h + h))) (Fin q) = Fin (q + (h + h)).
Proof.
  intros Hh. pose proof (vis_space h Hh) as V. unfold below, vbox in *. rewrite V. cbn [t_height t_depth new_box b_height b_depth]. fins.
  apply f_equal. ring.
Qed.
Lemma below_rule gs pre w r q : (0 <= r)%Qc -> below (A:=exact) gs pre (new_rule w (Fin (half * r)) (Fin (half * r))) (Fin q) = Fin (q + r).
Proof.
  intros Hr. pose proof (vis_rule r w) as V. unfold below, new_rule in *. rewrite V. cbn [t_height t_depth new_box b_height b_depth]. fins.
  rewrite qsum_half. destruct (qltb 0 r) eqn:E; [reflexivity|]. apply qltb_false in E.
  replace r with 0%Qc by now apply Qcle_antisym. now rewrite Qcplus_0_r.
Qed.

Lemma frac_drawn num den wn hn dn wd hd dd h r axis t :
  stacked (A:=exact) num den (Fin h) (Fin r) (Fin axis) t ->
  hbox_of num wn hn dn -> hbox_of den wd hd dd ->
  (0 <= hn)%Qc -> (0 <= dn)%Qc -> (0 <= hd)%Qc -> (0 <= dd)%Qc -> (0 < h)%Qc -> (0 <= r)%Qc ->
  (this wn - this wd <= 2 * billion)%Q -> (this wd - this wn <= 2 * billion)%Q ->
  fraction_drawn num den wn dn wd hd h r axis t /\
  size_of t (qmax 0 (qmax wn wd) + (h + h)) (qmax 0 (axis + h + r + dn + hn)) (qmax 0 (hd + dd + (h + h + h) - axis)).
Proof.
  intros (cn & cd & st & Cn & Cd & Nv & Nh) Bn Bd Hn Dn Hd Dd Hh Hr L1 L2.
  assert (EW : fmax exact (t_width num) (t_width den) = Fin (qmax wn wd)).
  { destruct Bn as (? & ? & ? & -> & E1 & _), Bd as (? & ? & ? & -> & E2 & _). cbn [t_width]. rewrite E1, E2. apply fmax_fin. }
  rewrite EW in *. set (W := qmax wn wd) in *.
  destruct (qmax_ge wn wd) as [G1 G2]. fold W in G1, G2.
  assert (X1 : (this W - this wn <= 2 * billion)%Q).
  { unfold W, qmax. destruct (qltb wd wn); [|assumption]. assert (0 <= billion)%Q by (unfold billion; discriminate). lra. }
  assert (X2 : (this W - this wd <= 2 * billion)%Q).
  { unfold W, qmax. destruct (qltb wd wn); [assumption|]. assert (0 <= billion)%Q by (unfold billion; discriminate). lra. }
  destruct (centred_draws _ _ _ _ _ _ Cn Bn G1 X1) as (offn & On & Dn').
  destruct (centred_draws _ _ _ _ _ _ Cd Bd G2 X2) as (offd & Od & Dd').
  destruct (centred_dims _ _ _ _ _ _ Cn Bn Hn Dn) as (bn & gn & -> & Wn & Hn' & Dn'').
  destruct (centred_dims _ _ _ _ _ _ Cd Bd Hd Dd) as (bd & gd & -> & Wd & Hd' & Dd'').
  apply (stack_box W hn dn hd dd h r) in Nv; try assumption. destruct Nv as (b & gs & -> & Bw & Bh & Bdp).
  assert (SH : fsub exact (t_height (TL KHList bd (Fin 0) gd [glue_ss; den; glue_ss])) (fsub exact (Fin axis) (fmul exact (fofZ exact 3) (Fin h)))
    = Fin (hd - axis + (h + h + h))).
  { cbn [t_height]. rewrite Hd'. fins. apply f_equal. ring. }
  rewrite SH in Nh. cbn [set_shift] in Nh.
  assert (H2 : fmul exact (fofZ exact 2) (Fin h) = Fin (h + h)) by (fins; apply f_equal; ring). rewrite H2 in Nh.
  set (stack := TL KVList b (Fin (hd - axis + (h + h + h))) gs _) in Nh.
  assert (TT : exists b' gs', t = TL KHList b' (Fin 0) gs' [stack; hbox (Fin (h + h))] /\
    size_of t (qmax 0 W + (h + h)) (qmax 0 (axis + h + r + dn + hn)) (qmax 0 (hd + dd + (h + h + h) - axis))).
  { rewrite Nh. cbn [hpack list_of]. do 2 eexists. split; [reflexivity|]. unfold size_of.
    cbn [t_width t_height t_depth b_width b_height b_depth fold_left hpack_dims stack hbox new_box d_h d_d d_w dims0].
    rewrite Bw, Bh, Bdp. rewrite f0_exact, !finf_fin. cbn [orb d_h d_d d_w]. fins. rewrite !fmax_fin.
    repeat split; apply f_equal.
    - ring.
    - rewrite qmax_l by apply qmax_ge. apply f_equal. ring.
    - rewrite qmax_l by apply qmax_ge. apply f_equal. ring. }
  destruct TT as (b' & gs' & -> & SZ). split; [|exact SZ]. clear SZ Nh SH H2.
  exists offn, offd. split; [exact On|]. split; [exact Od|]. intros ox oy x v.
  rewrite draws_unfold. cbn [each app hdraw hbox]. rewrite app_nil_r. unfold hdraw. unfold stack at 1.
  change (hpos gs' (Fin x) []) with (Fin x). unfold stack. rewrite draws_unfold. cbn [is_vlist each]. rewrite app_nil_r.
  cbn [app]. cbn [vbox new_rule vdraw app is_vlist t_height].
  unfold vpos. cbn [after below t_height t_depth app]. rewrite Hn', Dn'', Hd', Bh.
  fins. rewrite !below_space, below_rule, below_space by assumption. fins. rewrite vis_rule, Dn', Dd', Bw. fins.
  unfold bar. cbn [b_width b_height b_depth new_box]. fins. rewrite qsum_half.
  apply f_equal2; [|apply f_equal2].
  - f_equal; apply f_equal; ring.
  - destruct (qltb 0 r); [|reflexivity]. cbn [run]. unfold run. change (finf exact PInf) with true. cbv iota.
    change (fadd exact (Fin x) ox) with (xadd (Fin x) ox). f_equal. f_equal. change (fadd exact ?a oy) with (xadd a oy). f_equal. apply f_equal. ring.
  - f_equal; apply f_equal; ring.
Qed.
