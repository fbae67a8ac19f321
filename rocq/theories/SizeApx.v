(** Proof of the float64 size bounds (ApxSpec.v); the structure follows SizeFacts.v. *)
From Coq Require Import ZArith String Ascii List Bool Lia QArith Qcanon Qreals Reals Lqa Lra Psatz.
From Flocq Require Import Core.Core IEEE754.BinarySingleNaN IEEE754.PrimFloat.
From Verif Require Import Utf8 Token Ast SetTable Parser Symbols PropSymbols TreeSpec Arith Exact OrderLaws Box Ship ShipSpec ShipFacts ShipFacts2
  PackSpec PackFacts ExactFacts PropPack PropShip Mtex MtexTable MtexSpec FracSpec MtexFacts MtexFacts2 MtexFacts4 MtexFacts5 PropMtex ReadSpec ReadFacts
  RadFacts GeomSpec GeomFacts GeomFacts2 SizeSpec SizeFacts Float64Facts PropError PropRows PropCost Apx ApxSpec.
From Coq Require Import Floats Lra.
Import SizeSpec ApxSpec.
Import ListNotations.
Local Open Scope string_scope.
Local Open Scope list_scope.
Local Open Scope R_scope.

(** ** The rational numbers among the reals *)
Lemma real_plus a b : real (a + b) = real a + real b.
Proof. unfold real. rewrite <- Q2R_plus. apply Qeq_eqR. now rewrite this_plus. Qed.
Lemma real_opp a : real (- a) = - real a.
Proof. unfold real. rewrite <- Q2R_opp. apply Qeq_eqR. now rewrite this_opp. Qed.
Lemma real_minus a b : real (a - b) = real a - real b.
Proof. unfold real. rewrite <- Q2R_minus. apply Qeq_eqR. now rewrite this_minus. Qed.
Lemma real_mult a b : real (a * b) = real a * real b.
Proof. unfold real. rewrite <- Q2R_mult. apply Qeq_eqR. now rewrite this_mult. Qed.
Lemma real_0 : real 0 = 0. Proof. unfold real, Q2R. cbn. lra. Qed.
Lemma real_1 : real 1 = 1. Proof. unfold real, Q2R. cbn. lra. Qed.
Lemma real_q q : real (Q2Qc q) = Q2R q. Proof. unfold real. apply Qeq_eqR. cbn. apply Qred_correct. Qed.
Lemma real_rat n d : real (Q2Qc (n # d)) = IZR n / IZR (Zpos d). Proof. now rewrite real_q. Qed.
Lemma real_inv a : a <> 0%Qc -> real (/ a) = / real a.
Proof.
  intros H. unfold real. rewrite <- Q2R_inv.
  - apply Qeq_eqR. unfold Qcinv. cbn. apply Qred_correct.
  - intros E. apply H, Qc_is_canon. exact E.
Qed.
Lemma real_le a b : (a <= b)%Qc -> real a <= real b. Proof. apply Qle_Rle. Qed.
Lemma real_max a b : real (qmax a b) = Rmax (real a) (real b).
Proof.
  unfold qmax. destruct (qltb b a) eqn:E.
  - apply qltb_iff in E. apply Qlt_Rlt in E. fold (real a) (real b) in E. rewrite Rmax_left; lra.
  - apply qltb_false in E. apply Qle_Rle in E. fold (real a) (real b) in E. rewrite Rmax_right; lra.
Qed.
Lemma real_pos a : (0 <= a)%Qc -> 0 <= real a. Proof. intros H. rewrite <- real_0. now apply real_le. Qed.
Ltac reals := repeat first [rewrite real_plus | rewrite real_minus | rewrite real_mult | rewrite real_opp | rewrite real_max | rewrite real_0 | rewrite real_1].

Section Size.
Context {S : Type}.
Variable range : Symbols.gset -> list string.
Variable be : @backend float64 S.
Variable parse_float : string -> option float.
Variable M : measures.
Variables (expr : string) (size dpi : Qc) (fsize fdpi : float) (B N : R).
Notation tnode := (@Box.tnode float64).
Notation state := (@Box.state float64).
Notation row := (row M).
Notation pieces := (pieces M expr size dpi).
Notation face := (face size).
Hypothesis FR : fair range.
Hypothesis MB : measured64 B M size dpi fsize fdpi be parse_float.
Hypothesis B1 : 1 <= B.
Hypothesis BM : B <= bpow radix2 900.
Hypothesis N1 : 1 <= N.
Hypothesis NM : N <= bpow radix2 26.
Hypothesis NBIG : 128 <= N.
Notation ap := (Apx.ap B N).
Notation ap_add := (Apx.ap_add B N B1 BM N1 NM).
Notation ap_sub := (Apx.ap_sub B N B1 BM N1 NM).
Notation ap_max := (Apx.ap_max_sum B N B1 N1).
Notation ap_mono := (Apx.ap_mono B N B1 N1).
Notation ap_zero := (Apx.ap_zero B N B1 N1).

Lemma reads_ap x q : reads B x q -> ap 1 x (real q).
Proof.
  intros (F & V & L). split; [exact F|]. split; [lra|]. split; [lra|]. eapply Rle_trans; [exact V|]. rewrite u_val. pose proof (Rmult_le_compat_r B 128 N). lra.
Qed.
Lemma f0_is : @f0 float64 = 0%float. Proof. reflexivity. Qed.

(** ** Pieces and boxes *)
Definition DD (D : @dims float64) (nw nh nd : R) (a b c : Qc) : Prop :=
  ap nw (d_w D) (real a) /\ ap nh (d_h D) (real b) /\ ap nd (d_d D) (real c).
Definition adds (t : tnode) (e : ext) (n : R) : Prop :=
  exists kh kd, 0 <= kh /\ 0 <= kd /\ 0 <= n /\ kh + kd <= n /\
  forall D nw nh nd a b c, DD D nw nh nd a b c -> (0 <= b)%Qc -> (0 <= c)%Qc -> nw + n + 2 <= N ->
    DD (hpack_dims t D) (nw + n) (nh + kh) (nd + kd) (a + x_w e)%Qc (qmax b (x_h e)) (qmax c (x_d e)).
Definition same_font (f : @Box.font float64) (f' : SizeSpec.font) : Prop :=
  f_size f = fsize /\ f' = mk_font (A := exact) (f_name f) (f_type f) (Fin size).
Definition rep (p : piece) (t : tnode) (n : R) : Prop :=
  match p with
  | Glyph s f m => exists c w, t = TChar c /\ c_sym c = s /\ same_font (c_font c) f /\ c_dpi c = fdpi /\
      ap 1 (m_adv (c_metrics c)) (real (adv M s f m)) /\ ap 1 (c_width c) (real w) /\
      ap 1 (c_height c) (real (up M s f m)) /\ ap 3 (c_depth c) (real (down M s f m)) /\ 8 <= n
  | Solid e => stiff t /\ adds t e n
  end.
Inductive reps : list piece -> list tnode -> R -> Prop :=
| reps_nil : reps [] [] 0
| reps_cons p t n ps l W : rep p t n -> reps ps l W -> reps (p :: ps) (t :: l) (n + W).
Lemma rep_ge p t n : rep p t n -> 0 <= n.
Proof. destruct p; cbn [rep]; [intros (c & w & H); decompose [and] H; lra|intros (_ & kh & kd & H); decompose [and] H; lra]. Qed.
Lemma reps_ge ps l W : reps ps l W -> 0 <= W.
Proof. induction 1 as [|p t n ps l W R _ IH]; [lra|]. apply rep_ge in R. lra. Qed.
Lemma reps_app ps l W ps' l' W' : reps ps l W -> reps ps' l' W' -> reps (ps ++ ps') (l ++ l') (W + W').
Proof.
  intros H H'. induction H as [|p t n ps l W R _ IH]; cbn [app]; [now rewrite Rplus_0_l|]. rewrite Rplus_assoc. now constructor.
Qed.
Lemma adds_more t e n m : adds t e n -> n <= m -> adds t e m.
Proof.
  intros (kh & kd & P1 & P2 & P3 & P4 & H) L. exists kh, kd. split; [lra|]. split; [lra|]. split; [lra|]. split; [lra|].
  intros D nw nh nd a b c HD Hb Hc L'. destruct (H D nw nh nd a b c HD Hb Hc) as (X & Y & Z); [lra|]. split; [|split; assumption].
  eapply ap_mono; [exact X|lra].
Qed.
Lemma rep_more p t n m : rep p t n -> n <= m -> rep p t m.
Proof.
  destruct p; cbn [rep].
  - intros (c & w & H1 & H2 & H3 & H4 & H5 & H6 & H7 & H8 & H9) L. exists c, w. do 8 (split; [assumption|]). lra.
  - intros (ST & A) L. split; [exact ST|]. eapply adds_more; eassumption.
Qed.
Lemma reps_one p t n : rep p t n -> reps [p] [t] n.
Proof. intros H. rewrite <- (Rplus_0_r n). constructor; [exact H|constructor]. Qed.

Lemma qmax_z b : (0 <= b)%Qc -> qmax b 0 = b. Proof. apply qmax_0. Qed.
Lemma adds_kern n w q : ap n w (real q) -> adds (new_kern w) (gap q) (n + 1).
Proof.
  intros A. pose proof (ap_ge _ _ _ _ _ A). exists 0, 0. split; [lra|]. split; [lra|]. split; [lra|]. split; [lra|].
  intros D nw nh nd a b c (DW & DH & DC) Hb Hc L. cbn [hpack_dims new_kern gap x_w x_h x_d]. unfold DD. cbn [d_w d_h d_d].
  rewrite !qmax_z, !Rplus_0_r by assumption. split; [|tauto]. reals. replace (nw + (n + 1)) with (nw + n + 1) by ring. apply ap_add; auto. lra.
Qed.

(** The kern inserted after a node. *)
Definition kern_after (p : piece) (next : option piece) (w : Qc) : Qc :=
  match p with
  | Glyph s f m => (adv M s f m - w + match next with Some (Glyph s' f' _) => pair M f s f' s' | _ => 0 end)%Qc
  | Solid _ => 0%Qc
  end.
Lemma eqb_zero d : finite d -> feqb float64 d f0 = true -> R_of d = 0.
Proof.
  intros F E. rewrite f0_is in E. change (PrimFloat.eqb d 0 = true) in E. destruct zero_int as [Fz Vz].
  rewrite eqb_equiv, Beqb_correct in E by assumption. apply Req_bool_true in E || (revert E; case Req_bool_spec; [|discriminate]). 
  all: intros; congruence.
Qed.
(** A glyph and the kern after it. *)
Lemma kerning_rep sy f m c next tn s d s' w :
  c_sym c = sy -> same_font (c_font c) f -> c_dpi c = fdpi -> ap 1 (m_adv (c_metrics c)) (real (adv M sy f m)) -> ap 1 (c_width c) (real w) -> 6 <= N ->
  match next, tn with Some q, Some u => exists n, rep q u n | None, None => True | _, _ => False end ->
  kerning be (TChar c) tn s = LOk (d, s') -> ap 5 d (real (kern_after (Glyph sy f m) next w)).
Proof.
  destruct MB as (_ & _ & _ & _ & MK & _).
  intros E1 (E2 & E2') E3 EA EW L NX E. cbn [kerning] in E.
  apply bind_ok in E as (k & s1 & E4 & E). apply ret_ok in E as [-> _].
  assert (K : ap 1 k (real (match next with Some (Glyph s' f' _) => pair M f sy f' s' | _ => 0%Qc end))).
  { assert (Z : ap 1 (@f0 float64) (real 0)) by (rewrite real_0; eapply ap_mono; [exact ap_zero|lra]).
    destruct next as [[sy' f' m'|e']|], tn as [u|]; try destruct NX.
    - destruct H as (c' & w' & -> & F1 & (F2 & F2') & _). rewrite E1, E3, F1 in E4. apply reads_ap. rewrite E2', F2'. eapply MK; eassumption.
    - destruct H as [ST _]. destruct u; try destruct ST; apply ret_ok in E4 as [-> _]; exact Z.
    - apply ret_ok in E4 as [-> _]. exact Z. }
  cbn [kern_after]. reals. rewrite <- real_minus.
  eapply ap_mono; [apply ap_add; [|exact K|]|].
  - rewrite real_minus. apply ap_sub; [exact EA|exact EW|lra].
  - lra.
  - lra.
Qed.
(** Packing a kerned row. *)
Lemma row_fold ps l W : reps ps l W -> forall s l' s', kern_list be l s = LOk (l', s') ->
  forall D nw nh nd a b c, DD D nw nh nd a b c -> (0 <= b)%Qc -> (0 <= c)%Qc -> nw + W + 2 <= N -> 6 <= N ->
  exists mh md, mh + md <= nh + nd + W /\
    DD (fold_left (fun d x => hpack_dims x d) l' D) (nw + W) mh md
      (a + row_width M ps)%Qc (fold_left qmax (map (tall M) ps) b) (fold_left qmax (map (deep M) ps) c).
Proof.
  induction 1 as [|p t n ps l W R F2 IH]; intros s l' s' E D nw nh nd a b c HD Hb Hc L N6.
  - cbn [kern_list] in E. apply ret_ok in E as [-> _]. exists nh, nd. split; [lra|]. cbn [fold_left row_width map]. rewrite Rplus_0_r. 
    replace (a + 0)%Qc with a by ring. exact HD.
  - cbn [kern_list] in E. apply bind_ok in E as (d & s1 & E1 & E). apply bind_ok in E as (r & s2 & E2 & E). apply ret_ok in E as [-> _].
    pose proof (rep_ge _ _ _ R) as Pn. pose proof (reps_ge _ _ _ F2) as PW.
    assert (GB : (0 <= qmax b (tall M p))%Qc) by (eapply Qcle_trans; [exact Hb|apply qmax_ge]).
    assert (GC : (0 <= qmax c (deep M p))%Qc) by (eapply Qcle_trans; [exact Hc|apply qmax_ge]).
    cbn [map fold_left]. destruct p as [sy f m|e].
    + destruct R as (ch & w & -> & R1 & R2 & R3 & RA & RW & RH & RD & N8).
      assert (DK : ap 5 d (real (kern_after (Glyph sy f m) (hd_error ps) w))).
      { refine (kerning_rep sy f m ch _ _ _ _ _ w R1 R2 R3 RA RW N6 _ E1). destruct F2; cbn [hd_error]; eauto. }
      destruct HD as (DW & DH & DC).
      pose proof (ap_add _ _ _ _ _ _ DW RW ltac:(lra)) as W1. pose proof (ap_max _ _ _ _ _ _ DH RH) as H1. pose proof (ap_max _ _ _ _ _ _ DC RD) as D1.
      rewrite <- real_max in H1, D1. rewrite <- real_plus in W1.
      assert (WE : (row_width M (Glyph sy f m :: ps) = w + kern_after (Glyph sy f m) (hd_error ps) w + row_width M ps)%Qc).
      { cbn [row_width kern_after]. destruct ps as [|[]]; cbn [hd_error]; ring. }
      destruct (negb (feqb float64 d f0)) eqn:Z; cbn [fold_left hpack_dims new_kern].
      * destruct (IH _ _ _ E2 (mk_dims (d_w D + c_width ch + d)%float (Float64.max (d_h D) (c_height ch)) (Float64.max (d_d D) (c_depth ch)) (d_stretch D) (d_shrink D))
          (nw + n) (nh + 1) (nd + 3) (a + w + kern_after (Glyph sy f m) (hd_error ps) w)%Qc (qmax b (up M sy f m)) (qmax c (down M sy f m))) as (mh & md & Q1 & Q2); auto; try lra.
        { unfold DD. cbn [d_w d_h d_d]. split; [|split; assumption]. eapply ap_mono; [rewrite real_plus; apply ap_add; [exact W1|exact DK|lra]|lra]. }
        exists mh, md. split; [lra|]. rewrite WE. replace (nw + (n + W)) with (nw + n + W) by ring.
        replace (a + (w + kern_after (Glyph sy f m) (hd_error ps) w + row_width M ps))%Qc with (a + w + kern_after (Glyph sy f m) (hd_error ps) w + row_width M ps)%Qc by ring. exact Q2.
      * apply negb_false_iff in Z. apply eqb_zero in Z; [|eapply ap_fin; exact DK].
        destruct (IH _ _ _ E2 (mk_dims (d_w D + c_width ch)%float (Float64.max (d_h D) (c_height ch)) (Float64.max (d_d D) (c_depth ch)) (d_stretch D) (d_shrink D))
          (nw + n) (nh + 1) (nd + 3) (a + w + kern_after (Glyph sy f m) (hd_error ps) w)%Qc (qmax b (up M sy f m)) (qmax c (down M sy f m))) as (mh & md & Q1 & Q2); auto; try lra.
        { unfold DD. cbn [d_w d_h d_d]. split; [|split; assumption]. eapply ap_mono; [rewrite real_plus; eapply (ap_skip B N); [exact W1|exact DK|exact Z]|lra]. }
        exists mh, md. split; [lra|]. rewrite WE. replace (nw + (n + W)) with (nw + n + W) by ring.
        replace (a + (w + kern_after (Glyph sy f m) (hd_error ps) w + row_width M ps))%Qc with (a + w + kern_after (Glyph sy f m) (hd_error ps) w + row_width M ps)%Qc by ring. exact Q2.
    + destruct R as (ST & kh & kd & P1 & P2 & _ & P3 & AD).
      assert (DZ : d = f0) by (destruct t; try destruct ST; apply ret_ok in E1 as [-> _]; reflexivity). subst d.
      change (negb (feqb float64 f0 f0)) with false. cbv iota. cbn [fold_left].
      assert (L1 : nw + n + 2 <= N) by lra.
      pose proof (AD D nw nh nd a b c HD Hb Hc L1) as HD1.
      destruct (IH _ _ _ E2 _ _ _ _ _ _ _ HD1 GB GC) as (mh & md & Q1 & Q2); [lra|lra|].
      exists mh, md. split; [lra|]. cbn [row_width tall deep]. replace (nw + (n + W)) with (nw + n + W) by ring.
      replace (a + (x_w e + row_width M ps))%Qc with (a + x_w e + row_width M ps)%Qc by ring. exact Q2.
Qed.

(** [t] is an unshifted horizontal list of the size [e]. *)
Definition hx (t : tnode) (e : ext) (n : R) : Prop :=
  exists b gs l nh nd, t = TL KHList b f0 gs l /\ (b_size b <= 0)%Z /\ nh + nd <= n /\
    ap n (b_width b) (real (x_w e)) /\ ap nh (b_height b) (real (x_h e)) /\ ap nd (b_depth b) (real (x_d e)) /\ (0 <= x_h e)%Qc /\ (0 <= x_d e)%Qc.
Lemma hx_ge t e n : hx t e n -> 0 <= n.
Proof. intros (b & gs & l & nh & nd & _ & _ & _ & A & _). apply A. Qed.
Lemma hx_more t e n m : hx t e n -> n <= m -> hx t e m.
Proof.
  intros (b & gs & l & nh & nd & H0 & H1 & H2 & H3 & H4) L. exists b, gs, l, nh, nd. split; [exact H0|]. split; [exact H1|]. split; [lra|].
  split; [eapply ap_mono; [exact H3|exact L]|exact H4].
Qed.
Lemma hx_stiff t e n : hx t e n -> stiff t. Proof. intros (b & gs & l & nh & nd & -> & _). exact I. Qed.
Lemma minus_0 n x q : ap n x q -> ap n (x - 0)%float q.
Proof. intros A. destruct (minus_zero x (ap_fin _ _ _ _ _ A)) as [F V]. now apply (ap_eq _ _ _ x). Qed.
Lemma plus_0 n x q : ap n x q -> ap n (x + 0)%float q.
Proof. intros A. destruct (plus_zero x (ap_fin _ _ _ _ _ A)) as [F V]. now apply (ap_eq _ _ _ x). Qed.
Lemma zero_plus n x q : ap n x q -> ap n (0 + x)%float q.
Proof. intros A. destruct (add_zero_R x 0%float (ap_fin _ _ _ _ _ A)) as [F V]; try apply zero_int. now apply (ap_eq _ _ _ x). Qed.
Lemma ap_inf n x q : ap n x q -> finf float64 x = false.
Proof. intros A. apply finite_inf. eapply ap_fin; exact A. Qed.

Lemma hx_rep t e n : hx t e n -> rep (Solid e) t (n + 1).
Proof.
  intros (b & gs & l & nh & nd & -> & _ & L & AW & AH & AD & _). split; [exact I|].
  pose proof (ap_ge _ _ _ _ _ AW). pose proof (ap_ge _ _ _ _ _ AH). pose proof (ap_ge _ _ _ _ _ AD).
  exists nh, nd. split; [lra|]. split; [lra|]. split; [lra|]. split; [lra|].
  intros D nw mh md a x c (DW & DH & DC) Hb Hc L'. cbn [hpack_dims]. rewrite (ap_inf _ _ _ AH), (ap_inf _ _ _ AD). cbn [orb].
  unfold DD. cbn [d_w d_h d_d]. reals. split; [|split].
  - replace (nw + (n + 1)) with (nw + n + 1) by ring. apply ap_add; auto. lra.
  - apply ap_max; [exact DH|]. now apply minus_0.
  - apply ap_max; [exact DC|]. now apply plus_0.
Qed.

Lemma hlist_row ps l W s t s' : reps ps l W -> W + 2 <= N -> 6 <= N -> hlist_of be l true s = LOk (t, s') -> hx t (row ps) W.
Proof.
  intros F2 L N6 E. unfold hlist_of in E. apply bind_ok in E as (l' & s1 & E1 & E). apply ret_ok in E as [-> _].
  assert (D0 : DD dims0 0 0 0 0 0 0) by (unfold DD, dims0; cbn [d_w d_h d_d]; rewrite real_0; split; [|split]; exact ap_zero).
  destruct (row_fold ps l W F2 s l' s1 E1 dims0 0 0 0 0%Qc 0%Qc 0%Qc D0 (Qcle_refl _) (Qcle_refl _) ltac:(lra) N6) as (mh & md & Q1 & QW & QH & QD).
  rewrite Rplus_0_l in QW. unfold hx, list_of. cbn [hpack]. do 5 eexists. split; [reflexivity|].
  cbn [b_size b_width b_height b_depth new_box SizeSpec.row x_w x_h x_d]. split; [lia|]. split; [|split; [|split; [exact QH|split; [exact QD|split; apply fold_qmax_ge]]]]; [lra|].
  apply (zero_plus W). replace (0 + row_width M ps)%Qc with (row_width M ps) in QW by ring. exact QW.
Qed.
Lemma natural_row ps l W t : reps ps l W -> W + 2 <= N -> 6 <= N -> (forall x, In x l -> stiff x) -> natural_h l t -> forall s : S, hx t (row ps) W.
Proof.
  intros F2 L N6 ST NH s. apply (hlist_row ps l W s t s F2 L N6). unfold hlist_of, mbind. rewrite (kern_stiff be eq_refl l ST s). rewrite NH. reflexivity.
Qed.

(** ** Shifted boxes, gaps *)
Lemma rep_kern n w q : ap n w (real q) -> rep (Solid (gap q)) (new_kern w) (n + 1).
Proof. intros A. split; [exact I|now apply adds_kern]. Qed.
Lemma rep_hbox n w q : ap n w (real q) -> rep (Solid (gap q)) (hbox w) (n + 1).
Proof.
  intros A. split; [exact I|]. pose proof (ap_ge _ _ _ _ _ A). exists 0, 0. split; [lra|]. split; [lra|]. split; [lra|]. split; [lra|].
  intros D nw nh nd a b c (DW & DH & DC) Hb Hc L. unfold hbox. cbn [hpack_dims new_box b_width b_height b_depth].
  change (finf float64 f0) with false. cbn [orb gap x_w x_h x_d]. unfold DD. cbn [d_w d_h d_d]. reals. split; [|split].
  - replace (nw + (n + 1)) with (nw + n + 1) by ring. apply ap_add; auto. lra.
  - apply ap_max; [exact DH|exact ap_zero].
  - apply ap_max; [exact DC|exact ap_zero].
Qed.
Lemma rep_tl k b sh gs l n m mh md e : ap n (b_width b) (real (x_w e)) -> finite (b_height b) -> finite (b_depth b) ->
  ap mh (b_height b - sh)%float (real (x_h e)) -> ap md (b_depth b + sh)%float (real (x_d e)) -> n + 1 <= m -> mh + md <= m ->
  rep (Solid e) (TL k b sh gs l) m.
Proof.
  intros AW FH FD AH AD L1 L2. split; [exact I|].
  pose proof (ap_ge _ _ _ _ _ AW). pose proof (ap_ge _ _ _ _ _ AH). pose proof (ap_ge _ _ _ _ _ AD).
  exists mh, md. split; [lra|]. split; [lra|]. split; [lra|]. split; [lra|].
  intros D nw nh nd a x c (DW & DH & DC) Hb Hc L'. cbn [hpack_dims]. rewrite (finite_inf _ FH), (finite_inf _ FD). cbn [orb].
  unfold DD. cbn [d_w d_h d_d]. reals. split; [|split].
  - eapply ap_mono; [apply ap_add; [exact DW|exact AW|lra]|lra].
  - apply ap_max; assumption.
  - apply ap_max; assumption.
Qed.
Lemma shrink_const : const (@shrink_factor float64) (7 / 10).
Proof. apply (const_frat 7 10); [reflexivity|split; reflexivity|]. apply Rabs_le. lra. Qed.
Lemma seven_tenths : real (Q2Qc (7 # 10)) = 7 / 10. Proof. apply real_rat. Qed.
Lemma shrunk n x q : ap n x (real q) -> n + 1 <= N -> ap (n + 11) (x * shrink_factor)%float (real (Q2Qc (7 # 10) * q)).
Proof.
  intros A L. rewrite real_mult, seven_tenths, Rmult_comm. apply (ap_small B N B1 BM N1 NM); [exact A|exact L|exact shrink_const|]. apply Rabs_le. lra.
Qed.
Lemma shrink_hx t e n s t' s' : hx t e n -> n + 1 <= N -> shrink be t s = LOk (t', s') -> hx t' (scale (Q2Qc (7 # 10)) e) (n + 22).
Proof.
  intros (b & gs & l & nh & nd & -> & BS & L & AW & AH & AD & P1 & P2) LN E. cbn [shrink] in E.
  apply bind_ok in E as (l' & s1 & _ & E). apply ret_ok in E as [-> _].
  assert (BS' : (b_size b - 1 <? num_size_levels)%Z = true) by (apply Z.ltb_lt; unfold num_size_levels; lia).
  unfold box_shrink. rewrite BS'. cbn [scale_box b_size box_size b_width b_height b_depth]. rewrite BS'.
  pose proof (ap_ge _ _ _ _ _ AH). pose proof (ap_ge _ _ _ _ _ AD).
  do 3 eexists. exists (nh + 11), (nd + 11). split; [reflexivity|].
  cbn [scale_box b_size box_size b_width b_height b_depth scale x_w x_h x_d]. split; [lia|]. split; [lra|].
  split; [eapply ap_mono; [apply shrunk; [exact AW|lra]|lra]|]. split; [apply shrunk; [exact AH|lra]|]. split; [apply shrunk; [exact AD|lra]|].
  assert (K : (0 <= Q2Qc (7 # 10))%Qc) by (unfold Qcle, Qle; cbn; lia).
  split; [rewrite <- (Qcmult_0_l (x_h e))|rewrite <- (Qcmult_0_l (x_d e))]; now apply Qcmult_le_compat_r.
Qed.

(** ** Glyphs and spaces *)
Definition at_font (f : @Box.font float64) : state := mk_state f fdpi.
Definition fface (typ : string) : @Box.font float64 := mk_font "default" typ fsize.
Notation stt typ := (at_font (fface typ)).
Notation exf f := (mk_font (A := exact) (f_name f) (f_type f) (Fin size)).

Lemma char_rep sym f m s c s' : f_size f = fsize -> new_char be sym (at_font f) m s = LOk (c, s') -> rep (Glyph sym (exf f) m) (TChar c) 8.
Proof.
  destruct MB as (_ & _ & _ & MM & _). unfold new_char. cbn [at_font st_font st_dpi]. intros FZ E. apply bind_ok in E as (x & s1 & E1 & E).
  apply ret_ok in E as [-> _]. destruct (MM _ _ _ _ _ _ FZ E1) as (HA & _ & HI & HH & (w & HW) & _).
  eexists. exists (if String.eqb sym " " then adv M sym (exf f) m else w). split; [reflexivity|]. cbn [c_sym c_font c_dpi c_metrics c_width c_height c_depth].
  split; [reflexivity|]. split; [split; [exact FZ|reflexivity]|]. split; [reflexivity|]. apply reads_ap in HA, HI, HH, HW.
  split; [exact HA|]. split; [destruct (String.eqb sym " "); assumption|]. split; [exact HI|]. split; [|lra].
  replace (real (down M sym (exf f) m)) with (- (real (up M sym (exf f) m) - real (up M sym (exf f) m + down M sym (exf f) m))) by (reals; ring).
  apply Apx.ap_opp. eapply ap_mono; [apply ap_sub; [exact HI|exact HH|lra]|lra].
Qed.
Lemma space_ok typ (q : float) n k s t s' : make_space be (stt typ) q s = LOk (t, s') ->
  (forall x, reads B x (em M size) -> Rabs (R_of x - real (em M size)) <= (1 + Rabs (real (em M size))) / 2 ^ 50 -> ap n (x * q)%float (real (em M size * k))) -> rep (Solid (gap (em M size * k)%Qc)) t (n + 1).
Proof.
  destruct MB as (_ & _ & _ & MM & _). intros E H. apply make_space_ok in E as (m & E & ->).
  destruct (MM "m" (mk_font "it" "it" fsize) _ _ _ _ eq_refl E) as (HA & HS & _). apply rep_kern, H; [exact HA|exact HS].
Qed.
Lemma space_frat typ n d k s t s' : const (@frat float64 n d) (real k) -> Rabs (real k) <= 2 ->
  make_space be (stt typ) (frat n d) s = LOk (t, s') -> rep (Solid (gap (em M size * k)%Qc)) t 15.
Proof.
  intros C K E. eapply rep_more; [eapply (space_ok typ _ 14); [exact E|]|lra]. intros x R _. apply reads_ap in R. rewrite real_mult.
  eapply ap_mono; [apply (ap_large B N B1 BM N1 NM); [exact R|lra|exact C|lra]|lra].
Qed.
Lemma real_div n d : d <> 0%Z -> real (Q2Qc (n # 1) / Q2Qc (d # 1)) = IZR n / IZR d.
Proof.
  intros D. unfold Qcdiv. rewrite real_mult, real_inv, !real_q; [unfold Q2R; cbn [Qnum Qden]; field; apply IZR_neq, D|].
  intros E. apply (f_equal this) in E. cbn [this Q2Qc] in E. assert (Q : (d # 1 == 0)%Q) by (rewrite <- (Qred_correct (d # 1)), E; reflexivity).
  unfold Qeq in Q. cbn in Q. lia.
Qed.
Lemma thin_ok typ s t s' : make_space be (stt typ) (frat 1 5) s = LOk (t, s') -> rep (Solid (gap (em_over M size 1 5))) t 15.
Proof.
  apply space_frat; rewrite real_div by lia; [|apply Rabs_le; lra]. apply (const_frat 1 5); [reflexivity|split; reflexivity|apply Rabs_le; lra].
Qed.
Lemma handle_space_ok typ name s t s' : handle_space be name (stt typ) s = LOk (t, s') -> rep (Solid (gap (space_of M size name))) t 15.
Proof.
  unfold handle_space. intros E. unfold space_width in E. cbn [assoc] in E. unfold space_of, space_ems. cbn [find fst].
  repeat match type of E with context [String.eqb name ?x] => destruct (String.eqb name x) end.
  all: try discriminate E.
  all: match goal with |- rep (Solid (gap (em_over _ _ ?n' ?d'))) _ _ =>
    match type of E with make_space _ _ (frat ?n ?d) _ = _ =>
      refine (space_frat typ n d (Q2Qc (n' # 1) / Q2Qc (d' # 1))%Qc s t s' _ _ E); rewrite real_div by lia; [|apply Rabs_le; lra];
      replace (IZR n' / IZR d') with (IZR n / IZR d) by lra;
      first [apply (const_frat n d); [reflexivity|split; reflexivity|apply Rabs_le; lra] | idtac] end end.
  apply const_exact; [vm_compute; reflexivity|].
  replace (frat 2 1) with 2%float by reflexivity. rewrite (proj2 two_int). lra.
Qed.

Lemma symbol_ok typ m sym pos s t s' : 41 <= N -> handle_symbol range be expr sym pos (stt typ) m s = LOk (t, s') ->
  reps (symbol M expr size m typ sym pos) [t] 40.
Proof.
  intros N40 E. unfold handle_symbol in E. apply bind_ok in E as (c & s1 & E1 & E). apply char_rep in E1; [|reflexivity].
  change (exf (fface typ)) with (face typ) in E1.
  assert (G : reps [Glyph sym (face typ) m] [TChar c] 40) by (apply reps_one; eapply rep_more; [exact E1|lra]).
  assert (SP : is_spaced range sym = one_of (BinaryOperators_list ++ RelationSymbols_list ++ ArrowSymbols_list) sym).
  { apply eq_iff_eq_true. rewrite (C20_is_spaced range sym FR), one_of_in, !in_app_iff. reflexivity. }
  unfold symbol. rewrite <- SP. destruct (is_spaced range sym).
  - apply bind_ok in E as (bf & s2 & E2 & E). apply mlift_ok in E2. unfold obool_lres in E2.
    destruct (slice expr 0 pos) as [b0|] eqn:SL; [|discriminate E2]. injection E2 as ->.
    rewrite (after_opening_ok _ _ _ SL), set_has_list in E.
    destruct (one_of BinaryOperators_list sym && after_opening expr pos).
    + apply ret_ok in E as [-> _]. exact G.
    + apply bind_ok in E as (k1 & s3 & K1 & E). apply bind_ok in E as (k2 & s4 & K2 & E).
      apply thin_ok in K1. apply thin_ok in K2. apply reps_one.
      eapply rep_more; [apply hx_rep; eapply (hlist_row _ _ (15 + (8 + (15 + 0)))); [|lra|lra|exact E]|lra].
      constructor; [exact K1|]. constructor; [exact E1|]. constructor; [exact K2|constructor].
  - rewrite set_has_list in E. destruct (one_of PunctuationSymbols_list sym) eqn:PU.
    + destruct (String.eqb sym ".") eqn:DOT; [|discriminate E].
      apply bind_ok in E as (af & s2 & E2 & E). apply mlift_ok in E2. unfold obool_lres in E2.
      destruct (slice expr pos (zlen expr)) as [b0|] eqn:SL; [|discriminate E2]. injection E2 as ->.
      cbv zeta in E. rewrite (decimal_ok _ _ _ SL) in E. destruct (decimal_point expr pos).
      * apply ret_ok in E as [-> _]. exact G.
      * apply bind_ok in E as (k1 & s3 & K1 & E). apply thin_ok in K1. apply reps_one.
        eapply rep_more; [apply hx_rep; eapply (hlist_row _ _ (8 + (15 + 0))); [|lra|lra|exact E]|lra].
        constructor; [exact E1|]. constructor; [exact K1|constructor].
    + apply ret_ok in E as [-> _].
      assert (DN : String.eqb sym "." = false).
      { destruct (String.eqb sym ".") eqn:DOT; [|reflexivity]. apply String.eqb_eq in DOT. subst sym. vm_compute in PU. discriminate PU. }
      rewrite DN. exact G.
Qed.

Lemma chars_ok typ m text s ns s' : new_chars be text (stt typ) m s = LOk (ns, s') ->
  reps (map (letter size m typ) (ReadSpec.letters text)) ns (8 * INR (List.length (ReadSpec.letters text))).
Proof.
  unfold new_chars. change (rune_strings text) with (ReadSpec.letters text). revert s ns s'.
  induction (ReadSpec.letters text) as [|x l IH]; intros s ns s' E; cbn [mmap] in E.
  - apply ret_ok in E as [-> _]. cbn [List.length INR map]. rewrite Rmult_0_r. constructor.
  - apply bind_ok in E as (c & s1 & E1 & E). apply bind_ok in E as (r & s2 & E2 & E). apply ret_ok in E as [-> _].
    apply bind_ok in E1 as (c0 & s3 & E3 & E1). apply ret_ok in E1 as [-> _]. cbn [map].
    change (List.length (x :: l)) with (Datatypes.S (List.length l)). rewrite S_INR. replace (8 * (INR (List.length l) + 1)) with (8 + 8 * INR (List.length l)) by ring.
    constructor; [|eapply IH; exact E2]. apply char_rep in E3; [|reflexivity]. exact E3.
Qed.

(** ** Fractions *)
Lemma centred_dims W x t b0 gs0 l0 nh nd h d : centred (A := float64) W x t -> x = TL KHList b0 f0 gs0 l0 ->
  ap nh (b_height b0) (real h) -> ap nd (b_depth b0) (real d) -> (0 <= h)%Qc -> (0 <= d)%Qc ->
  exists b gs l, t = TL KHList b f0 gs l /\ b_width b = W /\ ap nh (b_height b) (real h) /\ ap nd (b_depth b) (real d).
Proof.
  intros (b & gs & -> & _) -> AH AD Ph Pd. cbn [hpack]. do 3 eexists. split; [reflexivity|].
  cbn [b_width b_height b_depth fold_left hpack_dims glue_ss d_h d_d dims0]. rewrite (ap_inf _ _ _ AH), (ap_inf _ _ _ AD). cbn [orb d_h d_d].
  split; [reflexivity|]. apply real_pos in Ph, Pd. split.
  - eapply ap_mono; [eapply Apx.ap_val; [apply ap_max; [exact ap_zero|apply minus_0; exact AH]|]|lra]. rewrite Rmax_right; lra.
  - eapply ap_mono; [eapply Apx.ap_val; [apply ap_max; [exact ap_zero|apply plus_0; exact AD]|]|lra]. rewrite Rmax_right; lra.
Qed.
Lemma twice_ok x q : ap 1 x (real q) -> ap 14 (x * fofZ float64 2)%float (real (q + q)) /\ ap 14 (fofZ float64 2 * x)%float (real (q + q)).
Proof.
  intros A. assert (H : ap 14 (x * fofZ float64 2)%float (real (q + q))).
  { rewrite real_plus. replace (real q + real q) with (real q * 2) by ring. eapply ap_mono; [apply (ap_large B N B1 BM N1 NM); [exact A|lra| |]|lra].
    - apply const_exact; [apply two_int|apply two_int].
    - apply Rabs_le. lra. }
  split; [exact H|]. apply Apx.ap_comm; [apply A|apply two_int|exact H].
Qed.
Lemma thrice_ok x q : ap 1 x (real q) -> ap 14 (fofZ float64 3 * x)%float (real (q + q + q)).
Proof.
  intros A. destruct (ofZ_exact 3 ltac:(reflexivity)) as [F3 V3]. apply Apx.ap_comm; [apply A|exact F3|].
  reals. replace (real q + real q + real q) with (real q * 3) by ring. eapply ap_mono; [apply (ap_large B N B1 BM N1 NM); [exact A|lra| |]|lra].
  - now apply const_exact.
  - apply Rabs_le. lra.
Qed.
Lemma half_ok x q : ap 1 x (real q) -> ap 12 (frat 1 2 * x)%float (real q / 2).
Proof.
  intros A. apply Apx.ap_comm; [apply A|vm_compute; reflexivity|]. replace (real q / 2) with (real q * (1 / 2)) by field.
  eapply ap_mono; [apply (ap_small B N B1 BM N1 NM); [exact A|lra| |]|lra].
  - apply (const_frat 1 2); [reflexivity|split; reflexivity|apply Rabs_le; lra].
  - apply Rabs_le. lra.
Qed.

Lemma stacked_row num den en ed n1 n2 (th r ax : float) (qth qr qax : Qc) t (s : S) : hx num en n1 -> hx den ed n2 ->
  ap 1 th (real qth) -> ap 1 r (real qr) -> ap 5 ax (real qax) -> n1 + n2 + n2 + 200 <= N ->
  stacked (A := float64) num den th r ax t -> hx t (fraction M qth qr qax en ed) (n1 + n2 + 150).
Proof.
  intros (bn & gn & ln & nhn & ndn & En & _ & Ln & Wn & Hn & Dn & Pn1 & Pn2) (bd & gd & ld & nhd & ndd & Ed & _ & Ld & Wd & Hd & Dd & Pd1 & Pd2)
    Ath Ar Aax L (cn & cd & stk & C1 & C2 & NV & NH).
  destruct (centred_dims _ _ _ _ _ _ _ _ _ _ C1 En Hn Dn Pn1 Pn2) as (b1 & g1 & l1 & -> & W1 & H1 & D1).
  destruct (centred_dims _ _ _ _ _ _ _ _ _ _ C2 Ed Hd Dd Pd1 Pd2) as (b2 & g2 & l2 & -> & W2 & H2 & D2).
  rewrite En, Ed in W1, W2. cbn [t_width] in W1, W2.
  pose proof (ap_max _ _ _ _ _ _ Wn Wd) as WM. change (fmax float64 (b_width bn) (b_width bd)) with (Float64.max (b_width bn) (b_width bd)) in *.
  set (W := Float64.max (b_width bn) (b_width bd)) in *.
  pose proof (ap_ge _ _ _ _ _ Wn). pose proof (ap_ge _ _ _ _ _ Wd). pose proof (ap_ge _ _ _ _ _ Hn). pose proof (ap_ge _ _ _ _ _ Dn). pose proof (ap_ge _ _ _ _ _ Hd). pose proof (ap_ge _ _ _ _ _ Dd).
  destruct (twice_ok _ _ Ath) as [T2 T2']. pose proof (half_ok _ _ Ar) as HR. pose proof (thrice_ok _ _ Ath) as T3.
  unfold natural_v, list_of in NV. cbn [vpack vfold vpack_dims new_rule vbox b_width b_height b_depth new_box d_h d_d d_w dims0 d_stretch d_shrink] in NV.
  rewrite W1, W2 in NV. rewrite (ap_inf _ _ _ WM) in NV. change (finf float64 f0) with false in NV. change (finf float64 (fpinf float64)) with true in NV. cbv iota in NV.
  assert (LI : fltb float64 (fpinf float64) (b_depth b2) = false).
  { change (PrimFloat.ltb infinity (b_depth b2) = false). rewrite ltb_equiv. pose proof (ap_fin _ _ _ _ _ D2) as F. destruct (Prim2B (b_depth b2)); try discriminate F; try reflexivity; destruct s0; reflexivity. }
  cbn [d_h d_d d_w] in NV. rewrite LI in NV.
  match type of NV with LOk ?x = LOk _ => assert (NV' : stk = x) by (inversion NV; reflexivity) end. clear NV. subst stk.
  cbn [set_shift t_height] in NH.
  cbn [fadd fsub fmul fmax float64] in *. rewrite f0_is in *.
  (* the parts of the height *)
  set (X := (0 + (0 + b_height b1) + (b_depth b1 + 0) + (th * fofZ float64 2 + frat 1 2 * r) + (frat 1 2 * r + 0))%float) in *.
  assert (AX : ap (nhn + ndn + 43) X (real (x_h en) + real (x_d en) + real (qth + qth) + real qr)).
  { eapply ap_mono; [eapply Apx.ap_val|].
    - unfold X. apply ap_add; [apply ap_add; [apply ap_add; [do 2 apply zero_plus; exact H1|apply plus_0; exact D1|lra]|apply ap_add; [exact T2|exact HR|lra]|lra]|apply plus_0; exact HR|lra].
    - field.
    - lra. }
  assert (AY : ap 20 (ax - fofZ float64 3 * th)%float (real qax - real (qth + qth + qth))) by (eapply ap_mono; [apply ap_sub; [exact Aax|exact T3|lra]|lra]).
  unfold fraction.
  set (e1 := mk_ext (qmax 0 (qmax (x_w en) (x_w ed))) (qax + (qth + qr) + x_d en + x_h en)%Qc (x_d ed + x_h ed + (qth + qth + qth) - qax)%Qc).
  match type of NH with natural_h [?a; ?b] t => assert (RA : rep (Solid e1) a (n1 + n2 + 120)); [|assert (RB : rep (Solid (gap (qth + qth))) b 15)] end.
  - pose proof (Apx.ap_cancel B N B1 BM N1 NM _ _ _ _ _ _ _ _ _ _ _ _ AX T2 H2 AY ltac:(lra)) as AC.
    assert (A5 : ap (nhn + ndn + 43 + (14 + nhd + 1) + 1) (X + (th * fofZ float64 2 + b_height b2))%float
       (real (x_h en) + real (x_d en) + real (qth + qth) + real qr + (real (qth + qth) + real (x_h ed)))).
    { apply ap_add; [exact AX|apply ap_add; [exact T2|exact H2|lra]|lra]. }
    destruct (add_zero_R (X + (th * fofZ float64 2 + b_height b2))%float 0%float) as [FZ VZ]; [apply A5|apply zero_int|apply zero_int|].
    apply (rep_tl _ _ _ _ _ (n1 + n2) (n1 + n2 + 120) (nhn + ndn + 81) (ndd + nhd + 22)); cbn [b_width b_height b_depth x_w x_h x_d e1].
    + eapply ap_mono; [eapply Apx.ap_val; [apply (Apx.ap_max B N B1 N1); [apply ap_max; [apply ap_max; [apply ap_max; [exact ap_zero|exact WM]|exact ap_zero]|exact ap_zero]|exact WM]|]|].
      * reals. unfold Rmax. repeat destruct (Rle_dec _ _); lra.
      * unfold Rmax. destruct (Rle_dec _ _); lra.
    + exact FZ.
    + exact (ap_fin _ _ _ _ _ D2).
    + destruct (sub_same (X + (th * fofZ float64 2 + b_height b2))%float (0 + (X + (th * fofZ float64 2 + b_height b2)))%float
        (b_height b2 - (ax - fofZ float64 3 * th))%float) as [F V]; [apply A5|exact FZ| |exact VZ|apply AC|].
      { eapply ap_fin. apply ap_sub; [exact H2|exact AY|lra]. }
      eapply ap_mono; [eapply Apx.ap_val; [eapply Apx.ap_eq; [exact AC|exact F|exact V]|reals; ring]|lra].
    + eapply ap_mono; [eapply Apx.ap_val; [apply ap_add; [exact D2|apply ap_sub; [exact H2|exact AY|lra]|lra]|reals; ring]|lra].
    + lra.
    + lra.
  - eapply rep_more; [apply rep_hbox; exact T2'|lra].
  - assert (RS := reps_cons _ _ _ _ _ _ RA (reps_one _ _ _ RB)).
    assert (HX := fun ST => natural_row _ _ _ t RS ltac:(lra) ltac:(lra) ST NH s). destruct HX as (b & gs & l & nh & nd & E0 & E1 & E2 & E3 & E4).
    + intros x [<-|[<-|[]]]; exact I.
    + exists b, gs, l, nh, nd. split; [exact E0|]. split; [exact E1|]. split; [lra|]. split; [eapply ap_mono; [exact E3|lra]|exact E4].
Qed.

Lemma style_ok sty num en n s num' s' : hx num en n -> n + 1 <= N -> style_shrink be sty num s = LOk (num', s') ->
  hx num' (match sty with DisplayStyle => en | TextStyle => scale (Q2Qc (7 # 10)) en end) (n + 22).
Proof.
  intros H L E. destruct sty.
  - apply ret_ok in E as [-> _]. destruct H as (b & gs & l & nh & nd & H0 & H1 & H2 & H3 & H4). exists b, gs, l, nh, nd.
    split; [exact H0|]. split; [exact H1|]. split; [lra|]. split; [eapply ap_mono; [exact H3|lra]|exact H4].
  - eapply shrink_hx; eauto.
Qed.
Lemma not_negative x : finite x -> 0 <= R_of x -> fltb float64 x f0 = false.
Proof.
  intros A P. rewrite f0_is. change (PrimFloat.ltb x 0 = false). destruct zero_int as [Fz Vz]. rewrite ltb_equiv, Bltb_correct by assumption.
  rewrite Vz. now apply Rlt_bool_false.
Qed.
Lemma genfrac_size sty num den en ed n1 n2 typ r qr s t s' :
  hx num en n1 -> hx den ed n2 -> reads B r qr -> 0 <= R_of r -> n1 + n2 + n2 + 300 <= N ->
  genfrac be "" "" r sty num den (stt typ) s = LOk (t, s') ->
  let sz e := match sty with DisplayStyle => e | TextStyle => scale (Q2Qc (7 # 10)) e end in
  hx t (fraction M (line M (face typ)) qr (axis M size) (sz en) (sz ed)) (n1 + n2 + 194).
Proof.
  intros Hn Hd Rr R0 L E sz. pose proof (hx_ge _ _ _ Hn). pose proof (hx_ge _ _ _ Hd).
  pose proof (reads_ap _ _ Rr) as Ar.
  apply (genfrac_ok be eq_refl) in E as (th' & s1 & num' & s2 & den' & s3 & me & bx & s4 & G1 & G2 & G3 & G4 & ST & E); [|apply not_negative; [apply Rr|exact R0]].
  pose proof (style_ok _ _ _ _ _ _ _ Hn ltac:(lra) G2) as Hn'. pose proof (style_ok _ _ _ _ _ _ _ Hd ltac:(lra) G3) as Hd'.
  destruct MB as (_ & _ & _ & MM & _ & ML & _). apply ML in G1 as [G1 _]; [|reflexivity]. cbn [st_font st_dpi at_font f_name f_type f_size fface] in *.
  destruct (MM "=" (fface "it") _ _ _ _ eq_refl G4) as (_ & _ & _ & _ & _ & (tp & bt & E1 & E2 & E3)).
  assert (MID : ap 5 (middle me) (real (axis M size))).
  { unfold middle. unfold axis. change (face "it") with (exf (fface "it")). rewrite E3. unfold Qcdiv. rewrite real_mult, real_inv, !real_plus, !real_1 by discriminate.
    destruct (ofZ_exact 2 ltac:(reflexivity)) as [F2 V2]. eapply ap_mono; [apply (Apx.div_ap B N B1 BM N1 NM) with (n := 3) (k := (1 + 1)%R); [|lra|exact V2|lra]|lra].
    eapply ap_mono; [apply ap_add; [apply reads_ap; exact E1|apply reads_ap; exact E2|lra]|lra]. }
  destruct E as [-> _]. pose proof (stacked_row _ _ _ _ _ _ _ _ _ _ _ _ _ s Hn' Hd' (reads_ap _ _ G1) Ar MID ltac:(lra) ST) as HX.
  replace (n1 + n2 + 194) with (n1 + 22 + (n2 + 22) + 150) by ring. exact HX.
Qed.

(** ** Bars *)
Lemma bar_ok inner e r qr (H lim : float) qH m t n k : hx inner e n -> ap 1 r (real qr) -> ap k H (real qH) -> 
  (forall nd, ap nd (t_depth inner) (real (x_d e)) -> ap nd lim (real (x_d e)) -> n + 1 <= m -> nd + k <= m -> under_bar (A := float64) inner r H lim t -> 
  rep (Solid (mk_ext (qmax 0 (x_w e)) qH (x_d e))) t m /\ stiff t).
Proof.
  intros (b & gs & l & nh & nd0 & -> & _ & L0 & W & Hh & Hd & _) Ar AH nd Ad AL L1 L2 (r0 & NV & V). cbn [t_depth] in *.
  unfold natural_v, list_of in NV. cbn [vpack vfold vpack_dims new_rule glue_fill b_width b_height b_depth new_box d_h d_d d_w dims0 d_stretch d_shrink] in NV.
  rewrite (ap_inf _ _ _ W) in NV. change (finf float64 (fpinf float64)) with true in NV. cbv iota in NV. cbn [d_h d_d d_w] in NV.
  match type of NV with LOk ?x = LOk _ => assert (NV' : r0 = x) by (inversion NV; reflexivity) end. clear NV. subst r0.
  cbn [vpack vfold vpack_dims new_rule glue_fill b_width b_height b_depth new_box d_h d_d d_w dims0 d_stretch d_shrink] in V.
  rewrite (ap_inf _ _ _ W) in V. change (finf float64 (fpinf float64)) with true in V. cbv iota in V. cbn [d_h d_d d_w] in V.
  match type of V with LOk ?x = LOk _ => assert (V' : t = x) by (inversion V; reflexivity) end. clear V. subst t.
  split; [|exact I].
  assert (AD : forall c : bool, ap nd (if c then lim else b_depth b) (real (x_d e))) by (intros []; assumption).
  apply (rep_tl _ _ _ _ _ n m k nd); cbn [b_width b_height b_depth x_w x_h x_d]; try lra.
  - reals. eapply ap_mono; [apply ap_max; [exact ap_zero|exact W]|lra].
  - apply AH.
  - eapply ap_fin, AD.
  - now apply minus_0.
  - apply plus_0, AD.
Qed.
Lemma row_one e : (0 <= x_h e)%Qc -> (0 <= x_d e)%Qc -> row [Solid e] = e.
Proof.
  intros H1 H2. destruct e as [w h d]. unfold SizeSpec.row. cbn [row_width map fold_left tall deep x_w x_h x_d] in *.
  rewrite (qmax_r 0 h), (qmax_r 0 d) by assumption. f_equal. ring.
Qed.
Lemma extra_ok typ : ap 6 (extra (stt typ)) (real (clearance size dpi)).
Proof.
  destruct MB as ((Fs & Vs) & (Fd & Vd) & Bd & _). unfold extra, clearance. cbn [st_font st_dpi at_font fface f_size].
  unfold Qcdiv. rewrite real_mult, real_inv, (real_q (1200 # 1)) by discriminate.
  destruct (ofZ_exact 1200 ltac:(reflexivity)) as [F2 V2].
  replace (/ Q2R (1200 # 1)) with (/ 1200) by (unfold Q2R; cbn; field).
  eapply ap_mono; [apply (Apx.div_ap B N B1 BM N1 NM) with (n := 4) (k := 1200); [|lra|exact V2|lra]|lra].
  cbn [fmul float64]. rewrite real_mult. pose proof u_pos. pose proof (uE B N B1 N1). pose proof (E_pos B N B1 N1).
  assert (RR : Rabs (R_of fsize * R_of fdpi) <= B) by (rewrite Vs, Vd, <- real_mult; exact Bd).
  destruct (mul_near fsize fdpi Fs Fd) as [F E].
  { eapply Rle_trans; [exact RR|]. eapply Rle_trans; [exact BM|]. apply bpow_le. lia. }
  rewrite Vs, Vd in E, RR. split; [exact F|]. split; [lra|]. split; [lra|].
  assert (u * Rabs (real size * real dpi) <= u * B) by (apply Rmult_le_compat_l; lra).
  assert (1 * (B * u) <= N * (B * u)) by (apply Rmult_le_compat_r; [apply Rmult_le_pos; lra|lra]). lra.
Qed.
Lemma hx_depth t e n : hx t e n -> exists nh nd, nh + nd <= n /\ ap nh (t_height t) (real (x_h e)) /\ ap nd (t_depth t) (real (x_d e)).
Proof. intros (b & gs & l & nh & nd & -> & _ & L & _ & H & D & _). exists nh, nd. auto. Qed.

Lemma overline_size body e n typ s t s' : hx body e n -> n + 100 <= N -> overline_box be body (stt typ) s = LOk (t, s') ->
  hx t (overline M (line M (face typ)) (clearance size dpi) e) (n + 30).
Proof.
  intros HB L E. apply (overline_ok be eq_refl) in E as (th & s1 & rule & T1 & T2 & OV); [|reflexivity|eapply hx_stiff; exact HB].
  destruct MB as (_ & _ & _ & _ & _ & ML & _). unfold thick in T1, T2. apply ML in T1 as [T1 _]; [|reflexivity]. apply ML in T2 as [T2 _]; [|reflexivity].
  change (exf (st_font (stt typ))) with (face typ) in *. destruct OV as (inner & rhs & NA & UB & NB).
  apply reads_ap in T1, T2. pose proof (thrice_ok _ _ T1) as T3. pose proof (extra_ok typ) as EX.
  destruct HB as (b & gs & l & nh & nd & -> & BS & LL & AW & AH & AD & P1 & P2).
  pose proof (ap_ge _ _ _ _ _ AW). pose proof (ap_ge _ _ _ _ _ AH). pose proof (ap_ge _ _ _ _ _ AD).
  unfold above, beneath in UB. cbn [t_height t_depth t_shift] in UB. rewrite f0_is in *. cbn [fadd fsub float64] in UB.
  change (fofZ float64 3 * th)%float with (fofZ float64 3 * th)%float in UB.
  assert (AHH : ap (nh + 14 + 1 + 6 + 1) (b_height b - 0 + fofZ float64 3 * th + extra (stt typ))%float (real (x_h e + (line M (face typ) + line M (face typ) + line M (face typ)) + clearance size dpi))).
  { reals. apply ap_add; [apply ap_add; [now apply minus_0|rewrite !real_plus in T3; exact T3|lra]|exact EX|lra]. }
  assert (HB : hx (TL KHList b 0%float gs l) e n) by (exists b, gs, l, nh, nd; auto 10).
  assert (HI : hx inner e (n + 1)).
  { rewrite <- (row_one e P1 P2). refine (natural_row _ _ _ _ (reps_one _ _ _ (hx_rep _ _ _ HB)) _ _ _ NA s); [lra|lra|]. intros x [<-|[]]. exact I. }
  (* the inner box *)
  unfold natural_h, list_of in NA. cbn [hpack fold_left hpack_dims dims0 d_w d_h d_d] in NA. rewrite (ap_inf _ _ _ AH), (ap_inf _ _ _ AD) in NA. cbn [orb d_w d_h d_d] in NA.
  assert (ID : ap nd (t_depth inner) (real (x_d e))).
  { rewrite NA. cbn [t_depth b_depth]. change (@f0 float64) with 0%float. apply real_pos in P2.
    eapply ap_mono; [eapply Apx.ap_val; [apply ap_max; [exact ap_zero|apply plus_0; exact AD]|rewrite Rmax_right; lra]|lra]. }
  destruct (bar_ok inner e rule (line M (face typ)) _ _ _ (n + 28) rhs (n + 1) (nh + 14 + 1 + 6 + 1) HI T2 AHH nd ID (plus_0 _ _ _ AD)) as [R ST]; [lra|lra|exact UB|].
  unfold overline. eapply hx_more; [refine (natural_row _ _ _ _ (reps_one _ _ _ R) _ _ _ NB s); [lra|lra|]|lra]. intros x [<-|[]]. exact ST.
Qed.

(** ** The visitor *)
Notation go := (go range be parse_float expr).
Definition grows (ps : bool -> string -> list piece) (f : @visitor float64 -> Box.M S (@visitor float64)) (c : R) : Prop := forall ns typ m s v' s',
  f (mk_visitor ns (stt typ) m) s = LOk (v', s') ->
  exists new W, v' = mk_visitor (ns ++ new) (stt typ) m /\ reps (ps m typ) new W /\ W <= c.
Definition sumR {X} (c : X -> R) (l : list X) : R := fold_right (fun x a => c x + a) 0 l.
Lemma sum_total {X} (f : X -> Z) k l : sumR (fun x => k * IZR (f x)) l = k * IZR (PropCost.total f l).
Proof. induction l as [|x l IH]; [cbn; ring|]. cbn [sumR fold_right]. fold (sumR (fun x => k * IZR (f x)) l). rewrite IH, total_cons, plus_IZR. ring. Qed.
Lemma sum_const {X} k (l : list X) : sumR (fun _ => k) l = k * INR (List.length l).
Proof. induction l as [|x l IH]; [cbn; ring|]. change (List.length (x :: l)) with (Datatypes.S (List.length l)). rewrite S_INR. cbn [sumR fold_right]. fold (sumR (fun _ : X => k) l). rewrite IH. ring. Qed.
Lemma g_mfold {X} (f : X -> visitor -> Box.M S visitor) (ps : X -> bool -> string -> list piece) c l :
  (forall x, In x l -> grows (ps x) (f x) (c x)) -> grows (fun m typ => flat_map (fun x => ps x m typ) l) (mfold f l) (sumR c l).
Proof.
  induction l as [|x l IH]; intros H ns typ m s v' s' E; cbn [mfold] in E.
  - apply ret_ok in E as [-> _]. exists [], 0. rewrite app_nil_r. split; [reflexivity|]. split; [constructor|cbn; lra].
  - apply bind_ok in E as (v1 & s1 & E1 & E). apply (H x (or_introl eq_refl)) in E1 as (n1 & W1 & -> & F1 & L1).
    apply IH in E as (n2 & W2 & -> & F2 & L2); [|intros; apply H; now right].
    exists (n1 ++ n2), (W1 + W2). rewrite app_assoc. split; [reflexivity|]. cbn [flat_map]. split; [now apply reps_app|]. cbn [sumR fold_right]. fold (sumR c l). lra.
Qed.
Lemma g_push (ps : bool -> string -> list piece) (k : state -> bool -> Box.M S tnode) c :
  (forall typ m s t s', k (stt typ) m s = LOk (t, s') -> exists W, reps (ps m typ) [t] W /\ W <= c) ->
  grows ps (fun v => mbind (k (v_state v) (v_math v)) (fun t => mret (push t v))) c.
Proof.
  intros H ns typ m s v' s' E. cbn [v_state v_math] in E. apply bind_ok in E as (t & s1 & E1 & E). apply ret_ok in E as [-> _].
  apply H in E1 as (W & F & L). exists [t], W. split; [reflexivity|]. split; assumption.
Qed.
Lemma one_solid e t n : hx t e n -> reps [Solid e] [t] (n + 1).
Proof. intros H. apply reps_one. now apply hx_rep. Qed.

Definition fits (z : Z) : Prop := 128 * IZR z + 128 <= N.
Definition gz (n : node) : Prop := fits (cost n) -> unresized n -> forall w, grows (fun m typ => pieces w m typ n) (go w n) (64 * IZR (cost n)).
Lemma unresized_all l : fold_right (fun x p => unresized x /\ p) True l -> Forall unresized l.
Proof. induction l as [|x l IH]; [constructor|]. cbn [fold_right]. intros [H1 H2]. constructor; auto. Qed.
Lemma fits_le a b : fits b -> (a <= b)%Z -> fits a.
Proof. unfold fits. intros H L. apply IZR_le in L. lra. Qed.
Lemma fits_in l x : fits (PropCost.total cost l) -> In x l -> fits (cost x).
Proof.
  intros F I. eapply fits_le; [exact F|]. clear F. induction l as [|y l IH]; [destruct I|]. rewrite total_cons.
  pose proof (total_nonneg cost l cost_nonneg). pose proof (cost_nonneg y). destruct I as [->|I]; [lia|]. apply IH in I. lia.
Qed.
Lemma fold_size w l : Forall gz l -> Forall unresized l -> fits (PropCost.total cost l) ->
  grows (fun m typ => flat_map (pieces w m typ) l) (mfold (go w) l) (64 * IZR (PropCost.total cost l)).
Proof.
  intros H U F. rewrite <- sum_total. apply (g_mfold (go w) (fun x m typ => pieces w m typ x)). intros x I. rewrite Forall_forall in H, U.
  apply (H x I); [eapply fits_in; eassumption|now apply U].
Qed.
Lemma list_size l typ m s t s' : Forall gz l -> Forall unresized l -> fits (PropCost.total cost l) -> handle_list be (go true) l (stt typ) m s = LOk (t, s') ->
  hx t (row (flat_map (pieces true m typ) l)) (64 * IZR (PropCost.total cost l)).
Proof.
  intros H U F E. unfold handle_list in E. apply bind_ok in E as (v & s1 & E1 & E).
  apply (fold_size true l H U F) in E1 as (new & W & -> & F2 & L). unfold fits in F. pose proof (total_nonneg cost l cost_nonneg) as P. apply IZR_le in P.
  eapply hx_more; [eapply hlist_row; [exact F2|lra|lra|exact E]|exact L].
Qed.
Lemma INR_letters s : INR (List.length (ReadSpec.letters s)) <= IZR (zlen s).
Proof. rewrite INR_IZR_INZ. apply IZR_le, letters_count. Qed.

Lemma zlen_nonneg x : (0 <= zlen x)%Z. Proof. unfold zlen. lia. Qed.
Lemma fits_N z : fits z -> (0 <= z)%Z -> 128 <= N. Proof. unfold fits. intros H L. apply IZR_le in L. lra. Qed.
Lemma frac_size sty name p (l : list node) typ m s t s' :
  (forall z, In z l -> Forall gz (list_children z)) -> (5 <= zlen name)%Z -> fits (cost (NMacro (Some (p, name)) l)) ->
  fold_right (fun x p => unresized x /\ p) True l ->
  handle_frac be (go true) sty l (stt typ) m s = LOk (t, s') ->
  exists a1 l1 b1 a2 l2 b2 l', l = NArg a1 l1 b1 :: NArg a2 l2 b2 :: l' /\
    let sz e := match sty with DisplayStyle => e | TextStyle => scale (Q2Qc (7 # 10)) e end in
    exists W, reps [Solid (fraction M (line M (face typ)) (line M (face typ)) (axis M size) (sz (row (flat_map (pieces true m typ) l1))) (sz (row (flat_map (pieces true m typ) l2))))] [t] W
      /\ W <= 64 * IZR (cost (NMacro (Some (p, name)) l)).
Proof.
  intros Q NM' F U E. unfold handle_frac in E. apply bind_ok in E as (th & s1 & E1 & E).
  destruct MB as (_ & _ & _ & _ & _ & ML & _). apply ML in E1 as (TR & TH & _); [|reflexivity]. unfold handle_frac_args in E.
  change (exf (st_font (stt typ))) with (face typ) in *.
  destruct l as [|[| | |a l1 b1| | | | | | | |] [|[| | |a2 l2 b2| | | | | | | |] l]]; try discriminate E.
  apply bind_ok in E as (num & s2 & E2 & E). apply bind_ok in E as (den & s3 & E3 & E).
  cbn [fold_right unresized] in U. destruct U as (U1 & U2 & U3). apply unresized_all in U1, U2.
  assert (C : (cost (NMacro (Some (p, name)) (NArg a l1 b1 :: NArg a2 l2 b2 :: l)) >= zlen name + 2 + PropCost.total cost l1 + PropCost.total cost l2)%Z).
  { cbn [cost]. rewrite !total_cons. cbn [cost]. pose proof (total_nonneg cost l cost_nonneg). lia. }
  set (c := cost _) in *. pose proof (total_nonneg cost l1 cost_nonneg) as C1. pose proof (total_nonneg cost l2 cost_nonneg) as C2.
  apply list_size in E2; [|apply (Q _ (or_introl eq_refl))|exact U1|eapply fits_le; [exact F|lia]].
  apply list_size in E3; [|apply (Q _ (or_intror (or_introl eq_refl)))|exact U2|eapply fits_le; [exact F|lia]].
  assert (C' : (7 + PropCost.total cost l1 + PropCost.total cost l2 <= c)%Z) by lia. apply IZR_le in C', C1, C2. rewrite !plus_IZR in C'. unfold fits in F.
  pose proof (genfrac_size _ _ _ _ _ _ _ _ _ _ _ _ _ E2 E3 TR TH ltac:(lra) E) as HX.
  exists a, l1, b1, a2, l2, b2, l. split; [reflexivity|]. cbv zeta. eexists. split; [apply one_solid; exact HX|]. lra.
Qed.

Lemma gz_both n : gz n /\ Forall gz (list_children n).
Proof.
  assert (FC : forall l, Forall (fun n => gz n /\ Forall gz (list_children n)) l -> Forall gz l).
  { intros l H. eapply Forall_impl; [|exact H]. cbn. tauto. }
  assert (BAD : forall n0, (forall w v s, exists e, go w n0 v s = LPanic e) -> gz n0).
  { intros n0 H _ _ w ns typ m s v' s' E. destruct (H w (mk_visitor ns (stt typ) m) s) as (e & E2). rewrite E2 in E. discriminate E. }
  assert (NONE : forall (v : @visitor float64) ns typ m c, (0 <= c)%Z -> v = mk_visitor ns (stt typ) m -> exists new W, v = mk_visitor (ns ++ new) (stt typ) m /\ reps [] new W /\ W <= 64 * IZR c).
  { intros v ns typ m c P ->. exists [], 0. rewrite app_nil_r. split; [reflexivity|]. split; [constructor|]. apply IZR_le in P. lra. }
  induction n using node_ind'; cbn [list_children]; split; auto; try (apply Forall_nil);
    try (apply BAD; intros [] v s0; eexists; reflexivity).
  - intros _ _ [] ns typ m s v' s' E; [discriminate E|]. apply ret_ok in E as [-> _]. apply NONE; [reflexivity|reflexivity].
  - intros F U w ns typ m s v' s' E. cbn [cost] in *. assert (F' : fits (PropCost.total cost l)) by (eapply fits_le; [exact F|lia]).
    pose proof (total_nonneg cost l cost_nonneg) as P. destruct w; cbn [Mtex.go] in E.
    + apply (fold_size true l (FC _ H) (unresized_all _ U) F') in E as (new & W & -> & F2 & L).
      exists new, W. split; [reflexivity|]. split; [exact F2|]. rewrite plus_IZR. lra.
    + apply ret_ok in E as [-> _]. apply NONE; [lia|reflexivity].
  - destruct nm as [[p name]|]; [|apply BAD; intros w v s; eexists; reflexivity].
    intros F U w ns typ m s v' s' E. cbn [Mtex.go] in E.
    apply bind_ok in E as (h & s1 & EH & E). apply mlift_ok in EH. destruct h as [h|]; [|discriminate E].
    apply (handler_cases _ FR) in EH.
    revert ns typ m s1 v' s' E.
    apply (g_push (fun m typ => pieces w m typ (NMacro (Some (p, name)) l))
             (fun st m => handle_macro range be parse_float expr (go true) h p name l st m)).
    intros typ m s0 t s' E. clear s.
    assert (Q : forall z, In z l -> Forall gz (list_children z)).
    { intros z I. rewrite Forall_forall in H. now destruct (H z I). }
    clear H FC BAD NONE. cbn [unresized] in U. destruct U as [[NB NS] U].
    assert (CC : (2 <= cost (NMacro (Some (p, name)) l) /\ zlen name <= cost (NMacro (Some (p, name)) l))%Z).
    { cbn [cost]. pose proof (total_nonneg cost l cost_nonneg). lia. }
    destruct CC as [C2 CL]. pose proof (fits_N _ F ltac:(lia)) as N128. apply IZR_le in C2.
    assert (SN : forall h0, one_of ("\hspace" :: spacing_names) h0 = false -> one_of spacing_names h0 = false /\ String.eqb h0 "\hspace" = false).
    { intros h0. unfold one_of. cbn [existsb]. intros HH. apply orb_false_iff in HH. tauto. }
    destruct h; cbn [Mtex.handle_macro] in E.
    + cbn [SizeSpec.pieces]. rewrite EH. apply handle_space_ok in E. eexists. split; [apply reps_one; exact E|lra].
    + destruct EH as (E1 & E2 & E3). apply SN in E1 as [E1 E4]. cbn [SizeSpec.pieces]. rewrite E1, E4, E2.
      unfold one_of, frac_names in E3. cbn [existsb] in E3.
      repeat match type of E3 with _ || _ = false => apply orb_false_iff in E3 as [? E3] end.
      unfold one_of. cbn [existsb].
      repeat match goal with HH : String.eqb name _ = false |- _ => rewrite HH; clear HH end. cbn [orb].
      eexists. split; [eapply symbol_ok; [lra|exact E]|lra].
    + subst name. unfold handle_custom_space in E. cbn [SizeSpec.pieces].
      change (one_of spacing_names "\hspace") with false. change (String.eqb "\hspace" "\hspace") with true. cbv iota.
      destruct l as [|[] l]; try discriminate E.
      match type of E with context [match ?x with [] => _ | _ => _ end] => destruct x as [|[] ?]; try discriminate E end.
      match type of E with context [parse_float ?x] => destruct (parse_float x) as [q|] eqn:PF; [|discriminate E] end.
      destruct MB as (_ & _ & _ & _ & _ & _ & MN). apply MN in PF as (FQ & VQ & BN & BQ).
      eexists. split; [apply reps_one; eapply (space_ok typ q 3); [exact E|]|lra].
      intros x (FX & _ & BX) SX. pose proof u_pos. pose proof (uE B N B1 N1). pose proof (E_pos B N B1 N1). pose proof (Rabs_pos (real (em M size))).
      rewrite real_mult in BQ. rewrite <- VQ in BQ, BN. rewrite real_mult, <- VQ. set (e := real (em M size)) in *. set (k := R_of q) in *.
      assert (D : Rabs ((R_of x - e) * k) <= 16 * (B * u)).
      { rewrite Rabs_mult. eapply Rle_trans; [apply Rmult_le_compat_r; [apply Rabs_pos|exact SX]|].
        rewrite Rabs_mult in BQ. replace (B * u) with (B * / 2 ^ 53) by (now rewrite u_val). lra. }
      assert (BU : B * u <= B). { pose proof u_8192. pose proof (Rmult_le_compat_l B u 1). lra. }
      assert (RR : Rabs (R_of x * k) <= 17 * B).
      { replace (R_of x * k) with ((R_of x - e) * k + e * k) by ring. eapply Rle_trans; [apply Rabs_triang|]. lra. }
      destruct (mul_near x q FX FQ) as [FM EM].
      { fold k. eapply Rle_trans; [exact RR|]. apply Rle_trans with (bpow radix2 5 * bpow radix2 900); [change (bpow radix2 5) with 32; lra|rewrite <- bpow_plus; apply bpow_le; lia]. }
      fold k in EM. split; [exact FM|]. split; [lra|]. split; [lra|].
      replace (R_of (x * q)%float - e * k) with ((R_of (x * q)%float - R_of x * k) + (R_of x - e) * k) by ring.
      eapply Rle_trans; [apply Rabs_triang|].
      assert (u * Rabs (R_of x * k) <= u * (17 * B)) by (apply Rmult_le_compat_l; lra).
      assert (32 * (B * u) <= N * (B * u)) by (apply Rmult_le_compat_r; [apply Rmult_le_pos; lra|lra]).
      assert (1 * u <= B * u) by (apply Rmult_le_compat_r; lra). lra.
    + destruct EH as [E1 E2]. apply SN in E1 as [E1 E4]. cbn [SizeSpec.pieces]. rewrite E1, E4, E2.
      unfold handle_function in E. apply bind_ok in E as (ts & s1 & E5 & E).
      change (set_type "rm" (stt typ)) with (stt "rm") in E5. apply chars_ok in E5.
      pose proof (INR_letters (sdrop 1 name)) as IL. pose proof (sdrop_zlen 1 name) as SZ. pose proof (zlen_nonneg name).
      assert (CZ : (zlen (sdrop 1 name) <= cost (NMacro (Some (p, name)) l))%Z) by lia. apply IZR_le in CZ. unfold fits in F.
      eexists. split; [apply one_solid; eapply hlist_row; [exact E5|lra|lra|exact E]|lra].
    + subst name. apply (frac_size _ "\frac" p) in E as (a1 & l1 & b1 & a2 & l2 & b2 & l' & -> & E); auto. cbn; lia.
    + subst name. apply (frac_size _ "\dfrac" p) in E as (a1 & l1 & b1 & a2 & l2 & b2 & l' & -> & E); auto. cbn; lia.
    + subst name. apply (frac_size _ "\tfrac" p) in E as (a1 & l1 & b1 & a2 & l2 & b2 & l' & -> & E); auto. cbn; lia.
    + contradiction.
    + contradiction.
    + subst name. unfold handle_overline in E. destruct l as [|x1 l]; [discriminate E|]. destruct x1; try discriminate E.
      apply bind_ok in E as (body & s1 & E1 & E). cbn [fold_right unresized] in U. destruct U as [U1 _]. apply unresized_all in U1.
      match type of E1 with handle_list _ _ ?y _ _ _ = _ => set (b := y) in * end.
      match goal with |- context [cost ?y] => assert (C : (3 + PropCost.total cost b <= cost y)%Z) end.
      { cbn [cost]. rewrite !total_cons. cbn [cost]. fold b. pose proof (total_nonneg cost l cost_nonneg). change (zlen "\overline") with 9%Z. lia. }
      pose proof (total_nonneg cost b cost_nonneg) as CB.
      apply list_size in E1; [|apply (Q _ (or_introl eq_refl))|exact U1|eapply fits_le; [exact F|lia]].
      unfold fits in F. apply IZR_le in C, CB. rewrite plus_IZR in C.
      pose proof (overline_size _ _ _ _ _ _ _ E1 ltac:(lra) E) as HX. eexists. split; [apply one_solid; exact HX|lra].
  - intros F U w ns typ m s v' s' E. cbn [Mtex.go] in E. apply bind_ok in E as (v1 & s1 & E1 & E).
    apply ret_ok in E as [-> _]. cbn [v_nodes v_state v_math cost] in *. change (set_type "it" (stt typ)) with (stt "it") in E1.
    apply (fold_size false l (FC _ H) (unresized_all _ U)) in E1 as (new & W & -> & F2 & L); [|eapply fits_le; [exact F|lia]].
    exists new, W. cbn [v_nodes v_state]. split; [reflexivity|]. split; [exact F2|]. rewrite plus_IZR. lra.
  - intros F U w ns typ m s0 v' s' E. cbn [Mtex.go v_state v_math cost] in *. apply bind_ok in E as (ts & s1 & E1 & E).
    apply bind_ok in E as (t & s2 & E2 & E). apply ret_ok in E as [-> _].
    pose proof (INR_letters s) as IL. assert (CZ : (1 <= Z.max 1 (zlen s) /\ zlen s <= Z.max 1 (zlen s))%Z) by lia. destruct CZ as [C1 C2]. apply IZR_le in C1, C2. unfold fits in F.
    apply chars_ok in E1. exists [t]. eexists. split; [reflexivity|]. split; [apply one_solid; eapply hlist_row; [exact E1|lra|lra|exact E2]|lra].
  - intros F U w ns typ m s0 v' s' E. cbn [Mtex.go cost] in *. change (rune_strings s) with (ReadSpec.letters s) in E.
    pose proof (INR_letters s) as IL. assert (CZ : (1 <= Z.max 1 (zlen s) /\ zlen s <= Z.max 1 (zlen s))%Z) by lia. destruct CZ as [C1 C2]. apply IZR_le in C1, C2. unfold fits in F.
    apply (g_mfold (fun x v => mbind (handle_symbol range be expr x 0 (v_state v) (v_math v)) (fun t => mret (push t v)))
             (fun x m typ => symbol M expr size m typ x 0) (fun _ => 40) (ReadSpec.letters s)) in E as (new & W & -> & F2 & L).
    + exists new, W. split; [reflexivity|]. split; [exact F2|]. rewrite sum_const in L. pose proof (pos_INR (List.length (ReadSpec.letters s))). lra.
    + intros x _. apply (g_push (fun m typ => symbol M expr size m typ x 0) (fun st m => handle_symbol range be expr x 0 st m)).
      intros * E0. eexists. split; [eapply symbol_ok; [lra|exact E0]|lra].
  - intros F U w ns typ m s0 v' s' E. cbn [Mtex.go v_math v_state cost] in *. cbn [SizeSpec.pieces].
    assert (CZ : (1 <= Z.max 1 (zlen s))%Z) by lia. apply IZR_le in CZ. unfold fits in F. destruct m.
    + apply bind_ok in E as (h & s1 & EH & E). apply mlift_ok in EH. destruct h as [h|]; [|discriminate E].
      apply (handler_cases _ FR) in EH.
      apply bind_ok in E as (t & s2 & E2 & E). apply ret_ok in E as [-> _]. exists [t].
      destruct h; cbn [handle_sym] in E2; try discriminate E2.
      * rewrite EH. apply handle_space_ok in E2. eexists. split; [reflexivity|]. split; [apply reps_one; exact E2|lra].
      * destruct EH as (E1 & _ & _). unfold one_of in E1. cbn [existsb] in E1. apply orb_false_iff in E1 as [_ E1].
        unfold one_of at 1. rewrite E1. eexists. split; [reflexivity|]. split; [eapply symbol_ok; [lra|exact E2]|lra].
    + apply bind_ok in E as (c & s2 & E2 & E). apply ret_ok in E as [-> _]. exists [TChar c]. eexists. split; [reflexivity|].
      apply char_rep in E2; [|reflexivity]. split; [apply reps_one; exact E2|lra].
Qed.

Lemma typeset_size l s t s' : Forall unresized l -> fits (1 + PropCost.total cost l) ->
  typeset range be parse_float expr l fsize fdpi s = LOk (t, s') ->
  hx t (size_of_expression M expr size dpi l) (64 * IZR (1 + PropCost.total cost l)).
Proof.
  unfold typeset. intros U F E. apply bind_ok in E as (v & s1 & E1 & E).
  assert (U' : unresized (NList l)) by (cbn [unresized]; clear - U; induction U; cbn [fold_right]; auto).
  destruct (gz_both (NList l)) as [G _]. change (mk_state (mk_font "default" "rm" fsize) fdpi) with (stt "rm") in E1.
  apply (G F U' true) in E1 as (new & W & -> & F2 & L). cbn [cost] in L. unfold fits in F. pose proof (total_nonneg cost l cost_nonneg) as P.
  assert (P' : (0 <= 1 + PropCost.total cost l)%Z) by lia. apply IZR_le in P'.
  eapply hx_more; [eapply hlist_row; [exact F2|lra|lra|exact E]|exact L].
Qed.
End Size.
