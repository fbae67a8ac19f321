(** C92: the size of formulas typeset with TrueType fonts, in float64. *)
From Coq Require Import ZArith String Ascii List Bool Lia QArith Qcanon Qreals Reals Lqa Lra Psatz.
From Flocq Require Import Core.Core IEEE754.BinarySingleNaN IEEE754.PrimFloat.
From Verif Require Import Utf8 Token Ast SetTable Parser Symbols PropSymbols Arith Exact OrderLaws ExactFacts Box Ship PropShip PropParse
  Mtex MtexFacts PropMtex MtexHoare FontSim PropRead GeomSpec GeomFacts ReadSpec TreeSpec SizeSpec PropSize Float64Facts PropError PropRows PropCost
  Ttf TtfSpec TtfFacts TtfExact PropTtf Render RenderFacts PropRender PropImage PropFormula Apx ApxSpec SizeApx PropApx TtfRound SizeTtfSpec.
From Coq Require Import Floats Lra.
Import SizeSpec ApxSpec SizeTtfSpec.
Import ListNotations.
Local Open Scope string_scope.
Local Open Scope list_scope.
Local Open Scope R_scope.

Lemma real_zq k : real (zq k) = IZR k.
Proof. unfold zq. rewrite real_q. unfold Q2R, inject_Z. cbn. field. Qed.
Lemma real_over a k : k <> 0%Z -> real (a / zq k) = real a / IZR k.
Proof. intros H. unfold Qcdiv. rewrite real_mult, real_inv by (now apply zq_nz). now rewrite real_zq. Qed.

(** ** Both worlds side by side *)
Section Both.
Context {Fnt : Type}.
Variable sf : @sfnt float64 Fnt.
Variable fnts : @fonts Fnt.
Notation sq := (on_paper sf).

(** The metrics of a glyph from the numbers in the font. *)
Definition met_of {A : arith} (adv x0 y0 x1 y1 : Z) (cmex sl : bool) (size dpi : Arith.F A) : @metrics A :=
  let sc n := fdiv A (fmul A (fdiv A size (fofZ A 12)) (fofZ A n)) (fofZ A 64) in
  let width := fsub A (sc x1) (sc x0) in
  let height := fsub A (sc (- y0)%Z) (sc (- y1)%Z) in
  let o := if cmex then fadd A (fdiv A height (fofZ A 2)) (fdiv A (fmul A (fdiv A size (fofZ A 3)) dpi) (fofZ A 72)) else f0 in
  mk_metrics (fdiv A (fmul A (fdiv A (fofZ A adv) (fofZ A 65536)) size) (fofZ A 12)) height width
    (sc x0) (sc x1) (fadd A (sc (- y1)%Z) o) (fadd A (sc (- y0)%Z) o) (fadd A (sc (- y0)%Z) o) sl.

Lemma glyph_both sym nm ty (s d : float) (s' d' : xq) m :
  (exists e, glyph_val sf fnts sym (mk_font (A := float64) nm ty s) d m = LPanic e /\ glyph_val sq fnts sym (mk_font (A := exact) nm ty s') d' m = LPanic e) \/
  (exists f i v v' adv x0 y0 x1 y1 cm sl p p', glyph_val sf fnts sym (mk_font (A := float64) nm ty s) d m = LOk v /\ glyph_val sq fnts sym (mk_font (A := exact) nm ty s') d' m = LOk v' /\
     v_font v = Some f /\ v_font v' = Some f /\ v_glyph v = i /\ v_glyph v' = i /\
     sf_advance sf f i p = Some adv /\ sf_bounds sf f i p' = Some (x0, y0, x1, y1) /\
     v_met v = met_of adv x0 y0 x1 y1 cm sl s d /\ v_met v' = met_of adv x0 y0 x1 y1 cm sl s' d').
Proof.
  unfold glyph_val, get_glyph. cbn [f_type f_size on_paper sf_name sf_index sf_gname sf_upem sf_load sf_advance sf_bounds uni_L].
  destruct (index sym m) as [r|]; cbn [need lbind]; [|left; eexists; split; reflexivity].
  destruct (get_font fnts _) as [f|]; cbn [need lbind]; [|left; eexists; split; reflexivity].
  destruct (sf_name sf f) as [ps|]; cbn [need lbind]; [|left; eexists; split; reflexivity].
  destruct (sf_index sf f r) as [idx|]; cbn [need lbind]; [|left; eexists; split; reflexivity].
  destruct (sf_gname sf f idx) as [name|]; cbn [need lbind]; [|left; eexists; split; reflexivity].
  destruct (sf_load sf f idx (fixed_I _)); cbn [need lbind]; [|left; eexists; split; reflexivity].
  destruct (sf_advance sf f idx _) as [adv|] eqn:EA; cbn [need lbind]; [|left; eexists; split; reflexivity].
  destruct (sf_load sf f idx (sf_upem sf f)); cbn [need lbind]; [|left; eexists; split; reflexivity].
  destruct (sf_bounds sf f idx _) as [[[[x0 y0] x1] y1]|] eqn:EB; cbn [need lbind]; [|left; eexists; split; reflexivity].
  right. exists f, idx. eexists _, _. exists adv, x0, y0, x1, y1, (String.eqb ps "Cmex10"). eexists _, _, _.
  split; [reflexivity|]. split; [reflexivity|]. cbn [v_font v_glyph v_met].
  do 4 (split; [reflexivity|]). split; [exact EA|]. split; [exact EB|]. split; reflexivity.
Qed.
End Both.

(** ** Rounding of the measurements *)
Section Near.
Variables (B : R) (size dpi : Qc) (fsize fdpi : float).
Hypothesis B1 : 1 <= B.
Hypothesis BM : B <= bpow radix2 900.
Hypothesis NS : is_number fsize size.
Hypothesis ND : is_number fdpi dpi.
Hypothesis WS : within B (Fin size).
Hypothesis WD : within B (Fin dpi).
Hypothesis WSD : within B (Fin (size * dpi)).
Notation off := (TtfRound.off B).

Definition qsc (n : Z) : Qc := (size / zq 12 * zq n / zq 64)%Qc.
Lemma exact_sc n : fdiv exact (fmul exact (fdiv exact (Fin size) (fofZ exact 12)) (fofZ exact n)) (fofZ exact 64) = Fin (qsc n).
Proof. rewrite (div_fin size 12) by lia. rewrite (ofZ_fin n), mul_fin, div_fin by lia. reflexivity. Qed.
Lemma real_sc n : real (qsc n) = real size / 12 * IZR n / 64.
Proof. unfold qsc. rewrite real_over by lia. rewrite real_mult, real_over, real_zq by lia. reflexivity. Qed.
Definition qadv (n : Z) : Qc := (zq n / zq 65536 * size / zq 12)%Qc.
Lemma exact_adv n : fdiv exact (fmul exact (fdiv exact (fofZ exact n) (fofZ exact 65536)) (Fin size)) (fofZ exact 12) = Fin (qadv n).
Proof. rewrite (ofZ_fin n), (div_fin (zq n) 65536) by lia. rewrite mul_fin, div_fin by lia. reflexivity. Qed.
Lemma real_adv n : real (qadv n) = IZR n / 65536 * real size / 12.
Proof. unfold qadv. rewrite real_over by lia. rewrite real_mult, real_over, real_zq by lia. reflexivity. Qed.
Definition qlift : Qc := (size / zq 3 * dpi / zq 72)%Qc.
Lemma exact_lift : fdiv exact (fmul exact (fdiv exact (Fin size) (fofZ exact 3)) (Fin dpi)) (fofZ exact 72) = Fin qlift.
Proof. rewrite (div_fin size 3) by lia. rewrite mul_fin, div_fin by lia. reflexivity. Qed.
Lemma real_lift : real qlift = real size / 3 * real dpi / 72.
Proof. unfold qlift. rewrite real_over by lia. rewrite real_mult, real_over by lia. reflexivity. Qed.

Lemma below_960 n : (Z.abs n <= 2 ^ 31)%Z -> Rabs (real size * IZR n) <= bpow radix2 960.
Proof.
  intros H. destruct (int32 n H) as (_ & _ & L). rewrite Rabs_mult. replace (bpow radix2 960) with (bpow radix2 929 * bpow radix2 31) by (rewrite <- bpow_plus; reflexivity).
  apply Rmult_le_compat; try apply Rabs_pos; [|exact L]. eapply Rle_trans; [exact WS|]. eapply Rle_trans; [exact BM|]. apply bpow_le. lia.
Qed.
Lemma int_900 n : (Z.abs n <= 2 ^ 31)%Z -> Rabs (IZR n) <= bpow radix2 900.
Proof. intros H. destruct (int32 n H) as (_ & _ & L). eapply Rle_trans; [exact L|]. apply bpow_le. lia. Qed.
Lemma const_of n : (1 <= n <= 2 ^ 31)%Z -> R_of (Float64.ofZ n) = IZR n.
Proof. intros H. apply int32. lia. Qed.
Lemma sc_rel n : (Z.abs n <= 2 ^ 31)%Z -> rel 6 tiny (fsize / Float64.ofZ 12 * Float64.ofZ n / Float64.ofZ 64)%float (real (qsc n)).
Proof.
  intros H. rewrite real_sc. destruct NS as [Fs Vs]. destruct (int32 n H) as (Fn & Vn & _).
  apply chain; auto; try (apply const_of; lia); try lra; [eapply Rle_trans; [exact WS|exact BM]|now apply int_900|now apply below_960].
Qed.
Lemma adv_rel n : (Z.abs n <= 2 ^ 31)%Z -> rel 6 tiny (Float64.ofZ n / Float64.ofZ 65536 * fsize / Float64.ofZ 12)%float (real (qadv n)).
Proof.
  intros H. rewrite real_adv. destruct NS as [Fs Vs]. destruct (int32 n H) as (Fn & Vn & _).
  apply chain; auto; try (apply const_of; lia); try lra; [now apply int_900|eapply Rle_trans; [exact WS|exact BM]|rewrite Rmult_comm; now apply below_960].
Qed.
Lemma lift_rel : rel 6 tiny (fsize / Float64.ofZ 3 * fdpi / Float64.ofZ 72)%float (real qlift).
Proof.
  rewrite real_lift. destruct NS as [Fs Vs], ND as [Fd Vd].
  apply chain; auto; try (apply const_of; lia); try lra; [eapply Rle_trans; [exact WS|exact BM]|eapply Rle_trans; [exact WD|exact BM]|].
  rewrite <- real_mult. eapply Rle_trans; [exact WSD|]. eapply Rle_trans; [exact BM|]. apply bpow_le. lia.
Qed.
Lemma off_reads e x q : off e x (real q) -> e <= 128 -> within B (Fin q) -> reads B x q.
Proof.
  intros [F H] L W. split; [exact F|]. split; [|exact W]. eapply Rle_trans; [exact H|]. pose proof u_pos.
  assert (P : 0 <= B * / 2 ^ 53) by (apply Rmult_le_pos; [lra|]; apply Rlt_le, Rinv_0_lt_compat; lra).
  rewrite u_val. pose proof (Rmult_le_compat_r (B * / 2 ^ 53) e 128 P L). lra.
Qed.

(** The measurements of a glyph. *)
Lemma met_near adv x0 y0 x1 y1 cm sl (me := met_of (A := float64) adv x0 y0 x1 y1 cm sl fsize fdpi) (mq := met_of (A := exact) adv x0 y0 x1 y1 cm sl (Fin size) (Fin dpi)) :
  (Z.abs adv <= 2 ^ 31)%Z -> (Z.abs x0 <= 2 ^ 31 /\ Z.abs y0 <= 2 ^ 31 /\ Z.abs x1 <= 2 ^ 31 /\ Z.abs y1 <= 2 ^ 31)%Z ->
  within B (m_adv mq) -> within B (m_height mq) -> within B (m_width mq) -> within B (m_xmin mq) -> within B (m_xmax mq) -> within B (m_ymin mq) -> within B (m_ymax mq) ->
  (reads B (m_adv me) (value (m_adv mq)) /\ Rabs (R_of (m_adv me) - real (value (m_adv mq))) <= (1 + Rabs (real (value (m_adv mq)))) / 2 ^ 50) /\
  reads B (m_height me) (value (m_height mq)) /\ reads B (m_width me) (value (m_width mq)) /\
  reads B (m_ymin me) (value (m_ymin mq)) /\ reads B (m_ymax me) (value (m_ymax mq)) /\ m_iceberg me = m_ymax me /\ m_iceberg mq = m_ymax mq.
Proof.
  intros HA (H1 & H2 & H3 & H4). subst me mq. unfold met_of. cbn [m_adv m_height m_width m_xmin m_xmax m_ymin m_ymax m_iceberg].
  rewrite !exact_sc, exact_adv, exact_lift, !sub_fin, (div_fin _ 2) by lia. rewrite !add_fin.
  set (qh := (qsc (- y0) - qsc (- y1))%Qc). set (qo := if cm then (qh / zq 2 + qlift)%Qc else 0%Qc).
  assert (EO : (if cm return Arith.F exact then Fin (qh / zq 2 + qlift) else @f0 exact) = Fin qo) by (unfold qo; destruct cm; reflexivity).
  rewrite !EO, !add_fin. cbn [value within].
  change (fdiv float64) with PrimFloat.div. change (fmul float64) with PrimFloat.mul. change (fadd float64) with PrimFloat.add. change (fsub float64) with PrimFloat.sub.
  change (fofZ float64) with Float64.ofZ. rewrite !real_plus, !real_minus. intros WA WH WW WX0 WX1 WY0 WY1.
  pose proof u_pos as U. pose proof (Bu B B1) as BU.
  pose proof lift_rel as RL. assert (LB : Rabs (real qlift) <= 1 * B).
  { rewrite real_lift. replace (real size / 3 * real dpi / 72) with (real (size * dpi) * / 216) by (rewrite real_mult; field). rewrite Rabs_mult, (Rabs_right (/ 216)) by lra.
    cbn [within] in WSD. pose proof (Rabs_pos (real (size * dpi))). lra. }
  apply (rel_off B B1 _ _ _ 1) in RL; [|lra|exact LB].
  assert (HH : Rabs (real qh) <= B) by exact WH.
  assert (WH' : Rabs (real (qsc (- y0)) - real (qsc (- y1))) <= B) by (rewrite <- real_minus; exact WH).
  assert (HO : Rabs (real qo) <= B).
  { unfold qo. destruct cm; [|rewrite real_0, Rabs_R0; lra]. rewrite real_plus, real_over by lia. eapply Rle_trans; [apply Rabs_triang|].
    assert (Rabs (real qh / 2) <= B / 2) by (unfold Rdiv; rewrite Rabs_mult, (Rabs_right (/ 2)) by lra; lra).
    assert (Rabs (real qlift) <= B / 216).
    { rewrite real_lift. replace (real size / 3 * real dpi / 72) with (real (size * dpi) * / 216) by (rewrite real_mult; field). rewrite Rabs_mult, (Rabs_right (/ 216)) by lra.
      cbn [within] in WSD. lra. } lra. }
  assert (Y0 : Rabs (real (qsc (- y1))) <= 2 * B).
  { replace (real (qsc (- y1))) with ((real (qsc (- y1)) + real qo) + - real qo) by ring. eapply Rle_trans; [apply Rabs_triang|]. rewrite Rabs_Ropp. lra. }
  assert (Y1 : Rabs (real (qsc (- y0))) <= 2 * B).
  { replace (real (qsc (- y0))) with ((real (qsc (- y0)) + real qo) + - real qo) by ring. eapply Rle_trans; [apply Rabs_triang|]. rewrite Rabs_Ropp. lra. }
  pose proof (rel_off B B1 _ _ _ 2 (sc_rel (- y1) ltac:(lia)) ltac:(lra) Y0) as OY0.
  pose proof (rel_off B B1 _ _ _ 2 (sc_rel (- y0) ltac:(lia)) ltac:(lra) Y1) as OY1.
  pose proof (rel_off B B1 _ _ _ 1 (sc_rel x0 ltac:(lia)) ltac:(lra) ltac:(lra)) as OX0.
  pose proof (rel_off B B1 _ _ _ 1 (sc_rel x1 ltac:(lia)) ltac:(lra) ltac:(lra)) as OX1.
  set (f0' := (fsize / Float64.ofZ 12 * Float64.ofZ (- y1) / Float64.ofZ 64)%float) in *. set (f1' := (fsize / Float64.ofZ 12 * Float64.ofZ (- y0) / Float64.ofZ 64)%float) in *.
  assert (OH : off 29 (f1' - f0')%float (real qh)).
  { unfold qh. rewrite real_minus. eapply off_mono; [exact B1|apply off_sub; [exact B1|exact BM|exact OY1|exact OY0|lra|lra|exact Y1|exact Y0|lra]|lra]. }
  assert (OO : off 45 (if cm then ((f1' - f0') / Float64.ofZ 2 + fsize / Float64.ofZ 3 * fdpi / Float64.ofZ 72)%float else 0%float) (real qo)).
  { unfold qo. destruct cm.
    - rewrite real_plus, real_over by lia. eapply off_mono; [exact B1|apply off_add; [exact B1|exact BM|eapply off_half; [exact B1|exact BM|exact OH|lra|lra|exact (const_of 2 ltac:(lia))]|exact RL|lra|lra| |lra|]|lra].
      + unfold Rdiv; rewrite Rabs_mult, (Rabs_right (/ 2)) by lra; lra.
      + unfold qo in HO. rewrite real_plus, real_over in HO by lia. lra.
    - rewrite real_0. destruct zero_int as [F0 V0]. split; [exact F0|]. rewrite V0. replace (0 - 0) with 0 by ring. rewrite Rabs_R0. lra. }
  change (@f0 float64) with 0%float.
  split; [|split; [|split; [|split; [|split; [|split; reflexivity]]]]].
  - pose proof (adv_rel adv HA) as RA. split.
    + eapply off_reads; [apply (rel_off B B1 _ _ _ 1 RA); lra|lra|exact WA].
    + destruct RA as [_ RA]. eapply Rle_trans; [exact RA|]. pose proof tiny_u. pose proof (Rabs_pos (real (qadv adv))).
      replace ((1 + Rabs (real (qadv adv))) / 2 ^ 50) with (8 * u * (1 + Rabs (real (qadv adv)))) by (rewrite u_val; field). 
      assert (0 <= u * Rabs (real (qadv adv))) by (apply Rmult_le_pos; lra). lra.
  - eapply off_reads; [exact OH|lra|exact HH].
  - eapply (off_reads 20); [|lra|cbn [within]; rewrite real_minus; exact WW]. rewrite real_minus.
    eapply off_mono; [exact B1|apply off_sub; [exact B1|exact BM|exact OX1|exact OX0|lra|lra|lra|lra|lra]|lra].
  - eapply (off_reads 63); [|lra|cbn [within]; rewrite real_plus; exact WY0]. rewrite real_plus.
    eapply off_mono; [exact B1|apply off_add; [exact B1|exact BM|exact OY0|exact OO|lra|lra|lra|lra|lra]|lra].
  - eapply (off_reads 63); [|lra|cbn [within]; rewrite real_plus; exact WY1]. rewrite real_plus.
    eapply off_mono; [exact B1|apply off_add; [exact B1|exact BM|exact OY1|exact OO|lra|lra|lra|lra|lra]|lra].
Qed.

(** The thickness of lines. *)
Lemma under_near (f : @Box.font float64) : f_size f = fsize -> (0 <= size)%Qc -> (0 <= dpi)%Qc ->
  let q := (Q2Qc (1 # 16) * size * dpi / zq 72)%Qc in
  reads B (underline f fdpi) q /\ 0 <= R_of (underline f fdpi) /\ (0 <= q)%Qc.
Proof.
  intros EF SP DP q. unfold underline, frat. rewrite EF.
  change (fdiv float64) with PrimFloat.div. change (fmul float64) with PrimFloat.mul. change (fofZ float64) with Float64.ofZ.
  destruct NS as [Fs Vs], ND as [Fd Vd]. cbn [within] in WS, WD, WSD.
  pose proof (const_of 1 ltac:(lia)) as C1. pose proof (const_of 16 ltac:(lia)) as C16. pose proof (const_of 72 ltac:(lia)) as C72.
  destruct (int32 1 ltac:(lia)) as (F1 & _). pose proof eta_pos as E0. pose proof (real_pos _ SP) as S0. pose proof (real_pos _ DP) as D0.
  rewrite Rabs_right in WS by lra. rewrite Rabs_right in WD by lra. rewrite real_mult in WSD. pose proof (Rmult_le_pos _ _ S0 D0) as SD0. rewrite Rabs_right in WSD by lra.
  assert (B96 : B <= bpow radix2 960) by (eapply Rle_trans; [exact BM|apply bpow_le; lia]). assert (P960 : 1 <= bpow radix2 960) by (apply (bpow_le radix2 0 960); lia).
  assert (EB : 0 <= eta * B <= bpow radix2 (-175)).
  { split; [apply Rmult_le_pos; lra|]. replace (bpow radix2 (-175)) with (eta * bpow radix2 900) by (unfold eta; rewrite <- bpow_plus; reflexivity). apply Rmult_le_compat_l; lra. }
  assert (SM : 64 * bpow radix2 (-175) <= tiny). { unfold tiny. change 64 with (bpow radix2 6). rewrite <- bpow_plus. apply bpow_le. lia. }
  assert (ET : eta <= bpow radix2 (-175)) by (apply bpow_le; lia). pose proof (bpow_gt_0 radix2 (-175)) as P175. assert (T1 : tiny <= 1) by (apply (bpow_le radix2 (-160) 0); lia).
  assert (ES : 0 <= eta * real size <= eta * B) by (split; [apply Rmult_le_pos; lra|apply Rmult_le_compat_l; lra]).
  assert (ED : 0 <= eta * real dpi <= eta * B) by (split; [apply Rmult_le_pos; lra|apply Rmult_le_compat_l; lra]).
  assert (ESD : 0 <= eta * (real size * real dpi) <= eta * B) by (split; [apply Rmult_le_pos; lra|apply Rmult_le_compat_l; lra]).
  set (c := (Float64.ofZ 1 / Float64.ofZ 16)%float).
  assert (R1 : rel 2 eta c (1 / 16)).
  { rewrite <- C16. eapply rel_mono; [apply (div_rel 0 0); [apply rel_exact; [exact F1|exact C1]|lra|lra|lra|]|lra|lra]. pose proof (small_range 1). rewrite Rabs_R1 in *. lra. }
  assert (R2 : rel 4 (2 * (eta * real size) + eta) (c * fsize)%float (1 / 16 * real size)).
  { rewrite <- Vs. eapply rel_mono; [apply (mul_rel 2 eta); [exact R1|lra|lra|exact Fs|]|lra|rewrite Vs, Rabs_right; lra].
    rewrite Vs. apply chain_range; rewrite Rabs_right; lra. }
  assert (R3 : rel 6 (2 * ((2 * (eta * real size) + eta) * real dpi) + eta) (c * fsize * fdpi)%float (1 / 16 * real size * real dpi)).
  { rewrite <- Vd. eapply rel_mono; [apply (mul_rel 4 (2 * (eta * real size) + eta)); [exact R2|lra|lra|exact Fd|]|lra|rewrite Vd, (Rabs_right (real dpi)); lra].
    rewrite Vd, (Rabs_right (real dpi)) by lra. rewrite Rabs_right by lra. pose proof (small_range (real size * real dpi)) as SR. rewrite Rabs_right in SR by lra. lra. }
  assert (R4 : rel 8 tiny (c * fsize * fdpi / Float64.ofZ 72)%float (real q)).
  { replace (real q) with (1 / 16 * real size * real dpi / R_of (Float64.ofZ 72)).
    - eapply rel_mono; [eapply (div_rel 6); [exact R3|lra|lra|lra|]|lra|lra]. rewrite Rabs_right by lra. pose proof (small_range (real size * real dpi)) as SR. rewrite Rabs_right in SR by lra. lra.
    - unfold q. rewrite real_over by lia. rewrite !real_mult, real_rat, C72. reflexivity. }
  assert (QB : 0 <= real q <= B). { unfold q. rewrite real_over by lia. rewrite !real_mult, real_rat. lra. }
  split; [|split].
  - eapply off_reads; [apply (rel_off B B1 8 _ _ 1 R4); [lra|]|lra|]; [rewrite Rabs_right; lra|cbn [within]; rewrite Rabs_right; lra].
  - assert (X1 : 0 <= R_of c). { destruct (div_rnd (Float64.ofZ 1) (Float64.ofZ 16)) as [_ E]; [exact F1|lra|rewrite C1, C16, Rabs_right by lra; pose proof (small_range 1); rewrite Rabs_R1 in *; lra|]. unfold c. rewrite E. apply rnd_pos. rewrite C1, C16. lra. }
    assert (X2 : 0 <= R_of (c * fsize)%float).
    { destruct (mul_rnd c fsize) as [_ E]; [apply R1|exact Fs| |rewrite E; apply rnd_pos, Rmult_le_pos; lra]. 
      pose proof (rel_size _ _ _ _ R1 ltac:(lra)) as Sz. rewrite Rabs_mult, Vs, (Rabs_right (real size)) by lra. rewrite (Rabs_right (1 / 16)) in Sz by lra.
      assert (Rabs (R_of c) * real size <= 1 * real size) by (apply Rmult_le_compat_r; lra). pose proof (small_range (real size)) as SR. rewrite Rabs_right in SR by lra. lra. }
    assert (X3 : 0 <= R_of (c * fsize * fdpi)%float).
    { destruct (mul_rnd (c * fsize)%float fdpi) as [_ E]; [apply R2|exact Fd| |rewrite E; apply rnd_pos, Rmult_le_pos; lra].
      pose proof (rel_size _ _ _ _ R2 ltac:(lra)) as Sz. rewrite Rabs_mult, Vd, (Rabs_right (real dpi)) by lra. rewrite (Rabs_right (1 / 16 * real size)) in Sz by lra.
      assert (Rabs (R_of (c * fsize)%float) * real dpi <= (2 * (1 / 16 * real size) + (2 * (eta * real size) + eta)) * real dpi) by (apply Rmult_le_compat_r; lra).
      pose proof (small_range (real size * real dpi)) as SR. rewrite Rabs_right in SR by lra. lra. }
    destruct (div_rnd (c * fsize * fdpi)%float (Float64.ofZ 72)) as [_ E]; [apply R3|lra| |rewrite E; apply rnd_pos; rewrite C72; lra].
    pose proof (rel_size _ _ _ _ R3 ltac:(lra)) as Sz. rewrite (Rabs_right (1 / 16 * real size * real dpi)) in Sz by lra. rewrite C72.
    assert (Rabs (R_of (c * fsize * fdpi)%float / 72) <= Rabs (R_of (c * fsize * fdpi)%float)).
    { unfold Rdiv. rewrite Rabs_mult, (Rabs_right (/ 72)) by lra. pose proof (Rabs_pos (R_of (c * fsize * fdpi)%float)). lra. }
    pose proof (small_range (real size * real dpi)) as SR. rewrite Rabs_right in SR by lra. lra.
  - unfold q, Qcdiv. assert (P : (0 <= Q2Qc (1 # 16))%Qc) by discriminate. assert (P2 : (0 <= / zq 72)%Qc) by discriminate.
    assert (MP : forall a b, (0 <= a -> 0 <= b -> 0 <= a * b)%Qc).
    { intros a b Ha Hb. replace 0%Qc with (0 * b)%Qc by ring. now apply Qcmult_le_compat_r. }
    auto.
Qed.
End Near.

(** ** The cache, for one size *)
Section OneSize.
Context {Fnt : Type}.
Variable sf : @sfnt float64 Fnt.
Variable fnts : @fonts Fnt.
Variables fsize fdpi : float.
Definition fresh64 : @backend float64 unit := {|
  be_kern := fun f1 s1 f2 s2 dpi => mlift (fst (kern sf fnts f1 s1 f2 s2 dpi (new_ttf new_canvas)));
  be_metrics := fun s f dpi m => mlift (fst (metrics_of sf fnts s f dpi true (new_ttf new_canvas)));
  be_xheight := fun f dpi => mlift (fst (xheight sf fnts f dpi (new_ttf new_canvas)));
  be_underline := fun f dpi => mret (underline f dpi) |}.
Definition related64 (s : @ttf float64 Fnt) (_ : unit) : Prop := exists h, Forall (at_size fsize fdpi) h /\ from sf fnts h s.

Lemma one_size_agree h : Forall (at_size fsize fdpi) h -> all_agree h.
Proof.
  intros H r1 r2 [k1 m1] [k2 m2] I1 I2 N1 N2 K. rewrite Forall_forall in H.
  destruct (H _ I1 _ _ N1) as (-> & Z1 & D1). destruct (H _ I2 _ _ N2) as (-> & Z2 & D2). split; [|now left].
  cbn [fst] in *. unfold key_eqb, font_eqb in K. rewrite !andb_true_iff, !String.eqb_eq in K. destruct K as ((K1 & (K2 & K3) & _) & _).
  destruct k1 as [s1 [n1 t1 z1] d1], k2 as [s2 [n2 t2 z2] d2]. cbn [k_sym k_font k_dpi f_name f_type f_size] in *. congruence.
Qed.
Lemma related64_call r s : at_size fsize fdpi r -> related64 s tt ->
  fst (perform sf fnts r s) = fst (perform sf fnts r (new_ttf new_canvas)) /\ related64 (snd (perform sf fnts r s)) tt.
Proof.
  intros M (h & HM & HF). assert (HM' : Forall (at_size fsize fdpi) (r :: h)) by (constructor; assumption).
  assert (HF' : from sf fnts (r :: h) s) by (intros kv I; destruct (HF kv I) as (r0 & q & I0 & N & E); exists r0, q; split; [now right|auto]).
  split.
  - rewrite (perform_fresh sf fnts (r :: h) r s (one_size_agree _ HM') HF' (or_introl eq_refl)).
    rewrite (perform_fresh sf fnts (r :: h) r (new_ttf new_canvas) (one_size_agree _ HM')); [reflexivity| |now left]. intros kv [].
  - exists (r :: h). split; [exact HM'|]. apply perform_from; [now left|exact HF'].
Qed.
Lemma amap64_inv {X} (f : X -> @answer float64 Fnt) (a b : lres X * @ttf float64 Fnt) : (forall x y, f x = f y -> x = y) ->
  fst (amap f a) = fst (amap f b) -> fst a = fst b.
Proof.
  intros INJ. unfold amap. cbn [fst]. destruct (fst a) as [x|e], (fst b) as [y|e']; intros H; try discriminate H.
  - f_equal. apply INJ. assert (Q : forall u v : @answer float64 Fnt, LOk u = LOk v -> u = v) by (intros u v E; now injection E). now apply Q.
  - assert (Q : forall u v : string, @LPanic (@answer float64 Fnt) u = LPanic v -> u = v) by (intros u v E; now injection E). f_equal. now apply Q.
Qed.
Lemma call64_sim {X} (m : @call float64 Fnt X) (r : @request float64) (f : X -> @answer float64 Fnt) :
  (forall x y, f x = f y -> x = y) -> at_size fsize fdpi r -> (forall s, perform sf fnts r s = amap f (m s)) ->
  sim related64 (to_M m) (mlift (fst (m (new_ttf new_canvas)))) any.
Proof.
  intros INJ M P s [] HR. destruct (related64_call r s M HR) as [E1 E2]. rewrite !P in E1. apply (amap64_inv f _ _ INJ) in E1.
  rewrite P in E2. cbn [amap snd] in E2. unfold to_M. rewrite <- E1. destruct (m s) as [[x|e] s']; cbn [fst snd mlift mret] in *.
  - split; [reflexivity|]. split; [exact I|exact E2].
  - reflexivity.
Qed.
Lemma size_sims : sims (ttf_backend sf fnts) fresh64 related64 (fun m => m = true) fsize fdpi.
Proof.
  constructor; [reflexivity| | |]; cbn [ttf_backend fresh64 be_metrics be_kern be_xheight be_underline].
  - intros sym ft m -> Z. apply (call64_sim _ (RMetrics sym ft fdpi true) AMetrics); [| |reflexivity].
    + intros x y E. assert (Q : forall u v : @metrics float64, @AMetrics float64 Fnt u = AMetrics v -> u = v) by (intros u v E'; inversion E'; reflexivity). now apply Q.
    + intros k m [E|[]]. injection E as <- <-. auto.
  - intros f1 c1 f2 c2 Z1 Z2. apply (call64_sim _ (RKern f1 c1 f2 c2 fdpi) ANumber); [| |reflexivity].
    + intros x y E. assert (Q : forall u v : float, @ANumber float64 Fnt u = ANumber v -> u = v) by (intros u v E'; inversion E'; reflexivity). now apply Q.
    + intros k m [E|[E|[]]]; injection E as <- <-; auto.
  - intros ft _ s [] HR. split; [reflexivity|]. split; [exact I|exact HR].
Qed.
Lemma one_size_sim U range pf x l s : fair range -> parse_expr U x = Ok l -> Forall (fun n => is_math n = true) l -> Forall unresized l -> related64 s tt ->
  seen_of (mtex_parse U range (ttf_backend sf fnts) pf x fsize fdpi s) = seen_of (mtex_parse U range fresh64 pf x fsize fdpi tt).
Proof.
  intros FR P OM UR HR. unfold mtex_parse. rewrite P.
  pose proof (typeset_font_sim range _ _ pf x related64 (fun m => m = true) fsize fdpi FR size_sims l UR (or_intror OM) s tt HR) as H.
  unfold mbind. unfold alike in H.
  destruct (typeset range (ttf_backend sf fnts) pf x l fsize fdpi s) as [[t s1]|e], (typeset range fresh64 pf x l fsize fdpi tt) as [[t' []]|e']; try contradiction.
  - destruct H as (<- & _ & H). reflexivity.
  - subst e'. reflexivity.
Qed.
Lemma after_related h c : Forall (at_size fsize fdpi) h -> related64 (after sf fnts h (new_ttf c)) tt.
Proof. intros H. exists h. split; [exact H|]. apply after_from; [auto|]. intros kv []. Qed.
End OneSize.

(** ** The measurements of the fonts *)
Section Measured.
Context {Fnt : Type}.
Variable pf : string -> option float.
Variable pq : string -> option xq.
Variable sf : @sfnt float64 Fnt.
Variable fnts : @fonts Fnt.
Variables (B : R) (size dpi : Qc) (fsize fdpi : float).
Hypothesis B1 : 1 <= B.
Hypothesis BM : B <= bpow radix2 900.
Hypothesis SP : (0 <= size)%Qc.
Hypothesis DP : (0 <= dpi)%Qc.
Hypothesis NS : is_number fsize size.
Hypothesis ND : is_number fdpi dpi.
Hypothesis I32 : int32_font sf.
Hypothesis FW : fonts_within B sf fnts size dpi.
Notation M := (font_measures pq (on_paper sf) fnts dpi).
Hypothesis NW : numbers_within B pf pq (em M size).

Lemma eqb_finite x : finite x -> feqb float64 x x = true.
Proof. intros F. cbn [feqb float64]. rewrite eqb_equiv, Beqb_correct by exact F. now apply Req_bool_true. Qed.
Lemma key64_refl sym nm ty : key_eqb (A := float64) (mk_key sym (mk_font nm ty fsize) fdpi) (mk_key sym (mk_font nm ty fsize) fdpi) = true.
Proof. unfold key_eqb, font_eqb. cbn [k_sym k_font k_dpi f_name f_type f_size]. rewrite !String.eqb_refl, !eqb_finite; [reflexivity|apply ND|apply NS]. Qed.

Lemma asked64 sym nm ty m x s' : be_metrics (fresh64 sf fnts) sym (mk_font nm ty fsize) fdpi m tt = LOk (x, s') ->
  exists adv x0 y0 x1 y1 cm sl, x = met_of (A := float64) adv x0 y0 x1 y1 cm sl fsize fdpi /\
    fst (metrics_of (on_paper sf) fnts sym (mk_font nm ty (Fin size)) (Fin dpi) true (new_ttf new_canvas)) = LOk (met_of (A := exact) adv x0 y0 x1 y1 cm sl (Fin size) (Fin dpi)) /\
    (Z.abs adv <= 2 ^ 31)%Z /\ (Z.abs x0 <= 2 ^ 31 /\ Z.abs y0 <= 2 ^ 31 /\ Z.abs x1 <= 2 ^ 31 /\ Z.abs y1 <= 2 ^ 31)%Z.
Proof.
  cbn [fresh64 be_metrics]. rewrite !metrics_fresh, key64_refl, key_fin_refl. intros E.
  destruct (glyph_both sf fnts sym nm ty fsize fdpi (Fin size) (Fin dpi) true) as [(e & G & _)|(f & i & v & v' & adv & x0 & y0 & x1 & y1 & cm & sl & p & p' & G & G' & _ & _ & _ & _ & A & A' & V & V')];
    rewrite G in E; [discriminate E|]. apply ret_ok in E as [-> _]. rewrite G'.
  exists adv, x0, y0, x1, y1, cm, sl. rewrite V, V'. split; [reflexivity|]. split; [reflexivity|]. split; [eapply (proj1 I32); exact A|eapply (proj1 (proj2 I32)); exact A'].
Qed.
(** Kerning from a new cache. *)
Lemma kern_fresh {A : arith} (sf' : @sfnt A Fnt) nm ty1 s1 ty2 s2 (z d : Arith.F A) c : feqb A z z = true -> feqb A d d = true ->
  fst (kern sf' fnts (mk_font nm ty1 z) s1 (mk_font nm ty2 z) s2 d (new_ttf c)) =
  match glyph_val sf' fnts s1 (mk_font nm ty1 z) d true with
  | LPanic e => LPanic e
  | LOk v1 =>
    if String.eqb s2 s1 && String.eqb ty2 ty1 then kern_of sf' v1 v1
    else match glyph_val sf' fnts s2 (mk_font nm ty2 z) d true with
    | LPanic e => LPanic e
    | LOk v2 => kern_of sf' v1 v2
    end
  end.
Proof.
  intros Nw Ndd. unfold kern. cbn [f_name f_size]. rewrite String.eqb_refl, Nw. cbn [andb].
  unfold cbind at 1. unfold get_info at 1. cbn [new_ttf t_glyphs Ttf.find].
  destruct (glyph_val sf' fnts s1 _ d true) as [v1|e]; [|reflexivity].
  assert (R : forall sy ty, key_eqb (A:=A) (mk_key sy (mk_font nm ty z) d) (mk_key sy (mk_font nm ty z) d) = true).
  { intros. unfold key_eqb, font_eqb. cbn [k_sym k_font k_dpi f_name f_type f_size]. rewrite !String.eqb_refl. now rewrite Nw, Ndd. }
  rewrite R. unfold cbind, get_info. cbn [t_glyphs Ttf.find].
  assert (R2 : key_eqb (A:=A) (mk_key s2 (mk_font nm ty2 z) d) (mk_key s1 (mk_font nm ty1 z) d) = String.eqb s2 s1 && String.eqb ty2 ty1).
  { unfold key_eqb, font_eqb. cbn [k_sym k_font k_dpi f_name f_type f_size]. rewrite !String.eqb_refl. rewrite Nw, Ndd. cbn. now rewrite !andb_true_r. }
  rewrite R2. destruct (_ && _); [reflexivity|].
  destruct (glyph_val sf' fnts s2 _ d true) as [v2|e]; [|reflexivity]. rewrite R. reflexivity.
Qed.
Lemma kern_zero {A : arith} (sf' : @sfnt A Fnt) n1 ty1 s1 n2 ty2 s2 (z d : Arith.F A) c : String.eqb n1 n2 = false ->
  fst (kern sf' fnts (mk_font n1 ty1 z) s1 (mk_font n2 ty2 z) s2 d (new_ttf c)) = LOk (@f0 A).
Proof. intros N. unfold kern. cbn [f_name]. rewrite N. reflexivity. Qed.
Lemma kern64 k : (Z.abs k <= 2 ^ 31)%Z -> within B (Fin (zq k / zq 64)) -> reads B (Float64.ofZ k / Float64.ofZ 64)%float (zq k / zq 64)%Qc.
Proof.
  intros H W. destruct (int32 k H) as (Fk & Vk & Bk). destruct (int32 64 ltac:(lia)) as (_ & V64 & _).
  assert (E : real (zq k / zq 64) = IZR k / R_of (Float64.ofZ 64)) by (rewrite real_over, real_zq, V64 by lia; reflexivity).
  assert (R1 : rel 2 tiny (Float64.ofZ k / Float64.ofZ 64)%float (real (zq k / zq 64))).
  { rewrite E. eapply rel_mono; [apply (div_rel 0 0); [apply rel_exact; [exact Fk|exact Vk]|lra|lra|rewrite V64; lra|]|lra|].
    - pose proof (small_range (IZR k)). assert (bpow radix2 31 <= bpow radix2 960) by (apply bpow_le; lia). lra.
    - assert (eta <= tiny) by (apply bpow_le; lia). lra. }
  eapply off_reads; [exact B1|apply (rel_off B B1 2 _ _ 1 R1); [lra|cbn [within] in W; lra]|lra|exact W].
Qed.
Lemma zero_reads : reads B (@f0 float64) 0%Qc.
Proof.
  destruct (int32 0 ltac:(lia)) as (F & V & _). split; [exact F|]. change (R_of (@f0 float64)) with (R_of (Float64.ofZ 0)). rewrite V, real_0.
  replace (IZR 0 - 0) with 0 by (simpl; ring). rewrite Rabs_R0. split; [|lra]. apply Rmult_le_pos; [lra|]. apply Rlt_le, Rinv_0_lt_compat. lra.
Qed.
Lemma kern_both nm ty1 s1 ty2 s2 v v' v1 v1' : 
  glyph_val sf fnts s1 (mk_font nm ty1 fsize) fdpi true = LOk v -> glyph_val (on_paper sf) fnts s1 (mk_font nm ty1 (Fin size)) (Fin dpi) true = LOk v' ->
  glyph_val sf fnts s2 (mk_font nm ty2 fsize) fdpi true = LOk v1 -> glyph_val (on_paper sf) fnts s2 (mk_font nm ty2 (Fin size)) (Fin dpi) true = LOk v1' ->
  (exists e, kern_of sf v v1 = LPanic e) \/
  exists x q, kern_of sf v v1 = LOk x /\ kern_of (on_paper sf) v' v1' = LOk (Fin q) /\ (within B (Fin q) -> reads B x q).
Proof.
  intros G1 G1' G2 G2'.
  destruct (glyph_both sf fnts s1 nm ty1 fsize fdpi (Fin size) (Fin dpi) true) as [(e & G & _)|(f & i & w & w' & adv & x0 & y0 & x1 & y1 & cm & sl & p & p' & G & G' & A1 & A2 & A3 & A4 & _)];
    rewrite G1 in G; [discriminate G|]. rewrite G1' in G'. injection G as <-. assert (Q : v' = w') by (inversion G'; reflexivity). subst w'.
  destruct (glyph_both sf fnts s2 nm ty2 fsize fdpi (Fin size) (Fin dpi) true) as [(e & H & _)|(g & j & w & w' & ? & ? & ? & ? & ? & ? & ? & ? & ? & H & H' & B1' & B2 & B3 & B4 & _)];
    rewrite G2 in H; [discriminate H|]. rewrite G2' in H'. injection H as <-. assert (Q : v1' = w') by (inversion H'; reflexivity). subst w'.
  unfold kern_of. rewrite A1, A2, A3, A4, B3, B4. cbn [need lbind on_paper sf_kern sf_upem].
  destruct (sf_kern sf f i j (sf_upem sf f)) as [k| |] eqn:K; [| |left; eexists; reflexivity]; right.
  - exists (Float64.ofZ k / Float64.ofZ 64)%float, (zq k / zq 64)%Qc. split; [reflexivity|]. split; [rewrite ofZ_fin, div_fin by lia; reflexivity|].
    apply kern64. eapply (proj2 (proj2 I32)). exact K.
  - exists (@f0 float64), 0%Qc. split; [reflexivity|]. split; [reflexivity|]. intros _. apply zero_reads.
Qed.
Lemma eqb_fin z : feqb exact (Fin z) (Fin z) = true.
Proof. cbn. apply qeqb_refl. Qed.
Lemma kern_reads n1 ty1 s1 n2 ty2 s2 x : fst (kern sf fnts (mk_font n1 ty1 fsize) s1 (mk_font n2 ty2 fsize) s2 fdpi (new_ttf new_canvas)) = LOk x ->
  reads B x (pair M (mk_font n1 ty1 (Fin size)) s1 (mk_font n2 ty2 (Fin size)) s2).
Proof.
  intros E. destruct FW as (_ & KW & _). cbn [font_measures pair]. unfold ask_kern.
  specialize (KW n1 ty1 s1 n2 ty2 s2).
  destruct (String.eqb n1 n2) eqn:N.
  2: { rewrite (kern_zero sf) in E by exact N. rewrite (kern_zero (on_paper sf)) by exact N. injection E as <-. apply zero_reads. }
  apply String.eqb_eq in N. subst n2.
  rewrite (kern_fresh sf) in E by (apply eqb_finite; [apply NS || apply ND]).
  rewrite (kern_fresh (on_paper sf)) in KW |- * by (apply eqb_fin).
  destruct (glyph_both sf fnts s1 n1 ty1 fsize fdpi (Fin size) (Fin dpi) true) as [(e & G & _)|(f & i & v & v' & adv & x0 & y0 & x1 & y1 & cm & sl & p & p' & G & G' & _)];
    rewrite G in E; [discriminate E|]. rewrite G' in KW |- *.
  destruct (String.eqb s2 s1 && String.eqb ty2 ty1) eqn:Q.
  - destruct (kern_both n1 ty1 s1 ty1 s1 v v' v v' G G' G G') as [(e & X)|(y & q & X & X' & R1)]; rewrite X in E; [discriminate E|].
    injection E as <-. rewrite X' in KW |- *. apply R1. now apply (KW (Fin q)).
  - destruct (glyph_both sf fnts s2 n1 ty2 fsize fdpi (Fin size) (Fin dpi) true) as [(e & H & _)|(? & ? & w & w' & ? & ? & ? & ? & ? & ? & ? & ? & ? & H & H' & _)];
      rewrite H in E; [discriminate E|]. rewrite H' in KW |- *.
    destruct (kern_both n1 ty1 s1 ty2 s2 v v' w w' G G' H H') as [(e & X)|(y & q & X & X' & R1)]; rewrite X in E; [discriminate E|].
    injection E as <-. rewrite X' in KW |- *. apply R1. now apply (KW (Fin q)).
Qed.

Lemma fonts_measured64 : measured64 B M size dpi fsize fdpi (fresh64 sf fnts) pf.
Proof.
  pose proof FW as (MW & _ & WS & WD & WSD).
  unfold measured64. split; [exact NS|]. split; [exact ND|]. split; [exact WSD|]. split; [|split; [|split]].
  - intros sym [nm ty z'] m [] x s' F E. cbn [f_size f_name f_type] in *. subst z'.
    destruct (asked64 _ _ _ _ _ _ E) as (a & x0 & y0 & x1 & y1 & cm & sl & -> & AQ & IA & IB).
    destruct (MW _ _ _ _ AQ) as (W1 & W2 & W3 & W4 & W5 & W6 & W7).
    destruct (met_near B size dpi fsize fdpi B1 BM NS ND WS WD WSD a x0 y0 x1 y1 cm sl IA IB W1 W2 W3 W4 W5 W6 W7) as ((N1 & N1') & N2 & N3 & N4 & N5 & N6 & N7).
    unfold font_measures. cbn [adv up down mid]. unfold ask_metrics. rewrite AQ.
    split; [exact N1|]. split; [exact N1'|]. split; [rewrite N6, N7; exact N5|].
    split; [|split; [eauto|]].
    + match goal with |- reads _ _ ?q => replace q with (value (m_height (met_of (A := exact) a x0 y0 x1 y1 cm sl (Fin size) (Fin dpi)))) by ring end. exact N2.
    + eexists _, _. split; [exact N5|]. split; [exact N4|]. reflexivity.
  - intros [n1 t1 z1] s1 [n2 t2 z2] s2 [] x s' F1 F2 E. cbn [f_size f_name f_type] in *. subst z1 z2. cbn [fresh64 be_kern] in E.
    destruct (fst (kern _ _ _ _ _ _ _ _)) as [k|e] eqn:K; [|discriminate E]. apply ret_ok in E as [-> _]. now apply kern_reads.
  - intros f [] x s' F E. cbn [fresh64 be_underline] in E. apply ret_ok in E as [-> _].
    cbn [font_measures line]. rewrite (under_fin dpi (mk_font (A := exact) (f_name f) (f_type f) (Fin size)) size eq_refl), value_fin. apply (under_near B size dpi fsize fdpi B1 BM NS ND WS WD WSD); auto.
  - intros v x E. destruct (NW v x E) as (q & PQ & F & V & W1 & W2). cbn [font_measures number]. rewrite PQ. cbn [value]. auto.
Qed.
End Measured.

(** ** C92 *)
(** The box of a formula, typeset with TrueType fonts in float64 after any calls for
    the same size, has the size that follows from the formula and the numbers in the
    fonts, up to B (n+2)^2 / 2^40. *)
Lemma formula_ap {Fnt} U range pf pq (sf : @sfnt float64 Fnt) fnts x l B (size dpi : Qc) fsize fdpi h c t err s' :
  let M := font_measures pq (on_paper sf) fnts dpi in
  fair range -> 1 <= B <= 2 ^ 900 -> (0 <= size)%Qc -> (0 <= dpi)%Qc -> is_number fsize size -> is_number fdpi dpi ->
  int32_font sf -> fonts_within B sf fnts size dpi -> numbers_within B pf pq (em M size) ->
  IZR (zlen x) + 2 <= 2 ^ 19 -> parse_expr U x = Ok l -> Forall (fun n => is_math n = true) l -> Forall unresized l ->
  Forall (at_size fsize fdpi) h ->
  mtex_parse U range (ttf_backend sf fnts) pf x fsize fdpi (after sf fnts h (new_ttf c)) = Some (LOk ((t, err), s')) ->
  let n := IZR (zlen x) + 2 in let e := size_of_expression M x size dpi l in
  let ok v q := finite v /\ Rabs (R_of v - real q) <= B * n ^ 2 / 2 ^ 40 /\ Rabs (real q) <= 64 * B * n in
  ok (t_width t) (x_w e) /\ ok (t_height t) (x_h e) /\ ok (t_depth t) (x_d e).
Proof.
  intros M FR BB SP DP NS ND I32 FW NW LN P OM UR H E.
  pose proof (one_size_sim sf fnts fsize fdpi U range pf x l _ FR P OM UR (after_related sf fnts fsize fdpi h c H)) as Q.
  rewrite E in Q. cbn [seen_of] in Q.
  destruct (mtex_parse U range (fresh64 sf fnts) pf x fsize fdpi tt) as [[[[t' err'] []]|e]|] eqn:E'; try discriminate Q.
  cbn [seen_of] in Q. assert (t = t') by congruence. subst t'.
  assert (BM' : B <= bpow radix2 900) by (change 900%Z with (Z.of_nat 900); rewrite bpow_nat; apply BB).
  eapply size_ap; [exact FR|exact BB|apply (fonts_measured64 pf pq sf fnts B size dpi fsize fdpi); try assumption; apply BB|exact LN|exact P|exact UR|exact E'].
Qed.
Theorem C92_box : forall (Fnt : Type) U range pf pq (sf : @sfnt float64 Fnt) fnts x l B (size dpi : Qc) fsize fdpi h c t err s',
  let M := font_measures pq (on_paper sf) fnts dpi in
  fair range -> 1 <= B <= 2 ^ 900 -> (0 <= size)%Qc -> (0 <= dpi)%Qc -> is_number fsize size -> is_number fdpi dpi ->
  int32_font sf -> fonts_within B sf fnts size dpi -> numbers_within B pf pq (em M size) ->
  IZR (zlen x) + 2 <= 2 ^ 19 -> parse_expr U x = Ok l -> Forall (fun n => is_math n = true) l -> Forall unresized l ->
  Forall (at_size fsize fdpi) h ->
  mtex_parse U range (ttf_backend sf fnts) pf x fsize fdpi (after sf fnts h (new_ttf c)) = Some (LOk ((t, err), s')) ->
  near (B * (IZR (zlen x) + 2) ^ 2 / 2 ^ 40) t (size_of_expression M x size dpi l).
Proof.
  intros * FR BB SP DP NS ND I32 FW NW LN P OM UR H E.
  destruct (formula_ap U range pf pq sf fnts x l B size dpi fsize fdpi h c t err s' FR BB SP DP NS ND I32 FW NW LN P OM UR H E) as ((W1 & W2 & _) & (H1 & H2 & _) & (D1 & D2 & _)).
  unfold near. auto 7.
Qed.

Lemma picture_ap : forall (Fnt : Type) U range pf pq (sf : @sfnt float64 Fnt) dflt dst x l B (size : Qc) fsize dpi fnts calls out,
  let f := chosen dflt fnts in
  let M := font_measures pq (on_paper sf) f (zq 72) in
  fair range -> 1 <= B <= 2 ^ 900 -> (0 <= size)%Qc -> is_number fsize size ->
  int32_font sf -> fonts_within B sf f size (zq 72) -> numbers_within B pf pq (em M size) ->
  IZR (zlen x) + 2 <= 2 ^ 19 -> parse_expr U x = Ok l -> Forall (fun n => is_math n = true) l -> Forall unresized l ->
  render U range pf sf dflt dst x fsize dpi fnts = Some (calls, out) ->
  let q := size_of_expression M x size (zq 72) l in
  let tall := real (x_h q + qmax (x_d q) 0) in
  let e := B * (IZR (zlen x) + 2) ^ 2 / 2 ^ 40 in
  (calls = [] /\ exists p, out = Panics p) \/
  exists b ops (n : Z), let h := Float64.ceil (b_height b + Float64.max (b_depth b) 0) in calls = [dst_args b dpi ops] /\
    finite (b_width b) /\ Rabs (R_of (b_width b) - real (x_w q)) <= e /\
    (finite h /\ R_of h = IZR n /\ tall - 3 * e <= IZR n < tall + 1 + 3 * e) /\
    Rabs (R_of (b_width b)) <= 65 * (B * (IZR (zlen x) + 2)) /\ Rabs (IZR n) <= 132 * (B * (IZR (zlen x) + 2)) /\ 2 <= IZR (zlen x) + 2 /\ B * (IZR (zlen x) + 2) <= bpow radix2 919.
Proof.
  intros * FR BB SP NS I32 FW NW LN P OM UR R q tall e.
  destruct (C47_render_generic float64_eq float64_zero U range pf sf dflt dst x fsize dpi fnts)
    as [(er & _ & R')|(b & gs & k & s & L & [((er & R') & _)|(ops & _ & R')])];
    rewrite R in R'.
  1,2: left; split; [|exists er]; inversion R'; reflexivity.
  right. assert (Q : calls = [dst_args b dpi ops]) by (inversion R'; reflexivity). clear R R'.
  destruct (int32 72 ltac:(lia)) as (F72 & V72 & _).
  destruct (formula_ap U range pf pq sf f x l B size (zq 72) fsize (Float64.ofZ 72) [] new_canvas _ _ _ FR BB SP (ltac:(discriminate) : (0 <= zq 72)%Qc) NS
    (conj F72 (eq_trans V72 (eq_sym (real_zq 72)))) I32 FW NW LN P OM UR (Forall_nil _) L) as ((W1 & W2 & W3) & (H1 & H2 & H3) & (D1 & D2 & D3)).
  fold M q in W1, W2, W3, H1, H2, H3, D1, D2, D3. cbn [t_width t_height t_depth] in *. fold e in W2, H2, D2.
  set (n := IZR (zlen x) + 2) in *. pose proof (zlen_nonneg x) as Z0. apply IZR_le in Z0. assert (N2 : 2 <= n) by (unfold n; lra).
  set (s0 := (b_height b + Float64.max (b_depth b) (@f0 float64))%float).
  destruct (int32 0 ltac:(lia)) as (F0 & V0 & _). change (@f0 float64) with (Float64.ofZ 0) in s0.
  destruct (max_finite (b_depth b) (Float64.ofZ 0) D1 F0) as [FM VM]. rewrite V0 in VM.
  assert (T : tall = real (x_h q) + Rmax (real (x_d q)) 0) by (unfold tall; rewrite real_plus, real_max, real_0; reflexivity).
  destruct BB as [B1 BM].
  assert (BG : B * n <= bpow radix2 919).
  { replace (bpow radix2 919) with (2 ^ 900 * 2 ^ 19) by (rewrite <- pow_add; symmetry; apply (bpow_nat 919)). apply Rmult_le_compat; [clear - B1; lra|clear - N2; lra|exact BM|exact LN]. }
  clear BM. assert (N19 : n <= 524288) by (replace 524288 with (2 ^ 19) by lra; exact LN). clear LN.
  assert (EB : 0 <= e <= B * n) .
  { unfold e. assert (BN : 0 <= B * n) by (apply Rmult_le_pos; lra). replace (B * n ^ 2 / 2 ^ 40) with (B * n * (n / 2 ^ 40)) by field.
    split; [apply Rmult_le_pos; [exact BN|lra]|]. rewrite <- (Rmult_1_r (B * n)) at 2. apply Rmult_le_compat_l; [exact BN|]. lra. }
  assert (DM : Rabs (Rmax (R_of (b_depth b)) 0 - Rmax (real (x_d q)) 0) <= e).
  { eapply Rle_trans; [|exact D2]. unfold Rmax. destruct (Rle_dec _ _), (Rle_dec _ _); split_Rabs; lra. }
  assert (AH : Rabs (R_of (b_height b)) <= 65 * (B * n)) by (revert H2 H3; split_Rabs; lra).
  assert (AD : Rabs (Rmax (R_of (b_depth b)) 0) <= 65 * (B * n)).
  { assert (Rabs (R_of (b_depth b)) <= 65 * (B * n)) by (revert D2 D3; split_Rabs; lra). assert (0 <= 65 * (B * n)) by lra. unfold Rmax. destruct (Rle_dec _ _); [rewrite Rabs_R0; lra|assumption]. }
  assert (FS : finite s0).
  { apply add_in_range; [exact H1|exact FM|]. rewrite VM, p1023. assert (130 * bpow radix2 919 <= bpow radix2 1023); [|lra].
    apply Rle_trans with (bpow radix2 8 * bpow radix2 919); [apply Rmult_le_compat_r; [apply bpow_ge_0|change (bpow radix2 8) with 256; lra]|rewrite <- bpow_plus; apply bpow_le; lia]. }
  pose proof (add_error _ _ FS) as ER. fold s0 in ER. rewrite VM in ER.
  destruct (ceil_exact s0 FS) as [FC VC].
  assert (UB : u * Rabs (R_of (b_height b) + Rmax (R_of (b_depth b)) 0) <= e).
  { assert (L2 : Rabs (R_of (b_height b) + Rmax (R_of (b_depth b)) 0) <= 130 * (B * n)) by (eapply Rle_trans; [apply Rabs_triang|lra]).
    pose proof u_pos. eapply Rle_trans; [apply Rmult_le_compat_l; [lra|exact L2]|]. unfold e. rewrite u_val.
    replace (B * n ^ 2 / 2 ^ 40) with (B * n * (n / 2 ^ 40)) by field. replace (/ 2 ^ 53 * (130 * (B * n))) with (B * n * (130 / 2 ^ 53)) by field.
    apply Rmult_le_compat_l; [apply Rmult_le_pos; lra|]. lra. }
  assert (NEAR : - (3 * e) <= R_of s0 - tall <= 3 * e).
  { rewrite T. pose proof (Rle_trans _ _ _ ER UB) as E1. apply Rabs_le_inv in E1, DM, H2. clear - E1 DM H2. lra. }
  exists b, ops, (Zceil (R_of s0)). cbv zeta. change (b_height b + Float64.max (b_depth b) 0)%float with s0.
  split; [exact Q|]. split; [exact W1|]. split; [exact W2|]. 
  pose proof (Zceil_ub (R_of s0)) as C1. pose proof (Zceil_lb (R_of s0)) as C2. split; [split; [exact FC|split; [exact VC|clear - NEAR C1 C2; lra]]|].
  split; [clear - W2 W3 EB; apply Rabs_le_inv in W2, W3; apply Rabs_le; lra|]. split; [|split; assumption].
  assert (T2 : Rabs tall <= 128 * (B * n)).
  { rewrite T. assert (Rabs (Rmax (real (x_d q)) 0) <= 64 * (B * n)). { clear - D3 EB. unfold Rmax. destruct (Rle_dec _ _); [rewrite Rabs_R0|]; lra. }
    eapply Rle_trans; [apply Rabs_triang|]. clear - H H3. lra. }
  assert (BN1 : 1 <= B * n). { clear - B1 N2. replace 1 with (1 * 1) by ring. apply Rmult_le_compat; lra. }
  assert (E4 : e <= B * n / 2). { unfold e. replace (B * n ^ 2 / 2 ^ 40) with (B * n * (n / 2 ^ 40)) by field. unfold Rdiv at 2. apply Rmult_le_compat_l; [clear - BN1; lra|clear - N19; lra]. }
  apply Rabs_le_inv in T2. clear - T2 NEAR C1 C2 E4 BN1 EB. apply Rabs_le. lra.
Qed.
(** The picture that Render asks for: its width in points is that of the formula up to
    the rounding error [e]; its height is that of the formula rounded up to a whole
    number of points, up to [3 e].  A depth above the baseline does not count. *)
Theorem C92_picture : forall (Fnt : Type) U range pf pq (sf : @sfnt float64 Fnt) dflt dst x l B (size : Qc) fsize dpi fnts calls out,
  let f := chosen dflt fnts in
  let M := font_measures pq (on_paper sf) f (zq 72) in
  fair range -> 1 <= B <= 2 ^ 900 -> (0 <= size)%Qc -> is_number fsize size ->
  int32_font sf -> fonts_within B sf f size (zq 72) -> numbers_within B pf pq (em M size) ->
  IZR (zlen x) + 2 <= 2 ^ 19 -> parse_expr U x = Ok l -> Forall (fun n => is_math n = true) l -> Forall unresized l ->
  render U range pf sf dflt dst x fsize dpi fnts = Some (calls, out) ->
  let q := size_of_expression M x size (zq 72) l in
  let tall := real (x_h q + qmax (x_d q) 0) in
  let e := B * (IZR (zlen x) + 2) ^ 2 / 2 ^ 40 in
  (calls = [] /\ exists p, out = Panics p) \/
  exists w h (n : Z) ops, calls = [mk_dst (w / 72)%float (h / 72)%float dpi ops] /\
    finite w /\ Rabs (R_of w - real (x_w q)) <= e /\
    finite h /\ R_of h = IZR n /\ tall - 3 * e <= IZR n < tall + 1 + 3 * e.
Proof.
  intros * FR BB SP NS I32 FW NW LN P OM UR R q tall e.
  destruct (picture_ap Fnt U range pf pq sf dflt dst x l B size fsize dpi fnts calls out FR BB SP NS I32 FW NW LN P OM UR R)
    as [X|(b & ops & n & E & W1 & W2 & (H1 & H2 & H3) & _)]; [left; exact X|right].
  eexists _, _, n, ops. split; [exact E|]. split; [exact W1|]. split; [exact W2|]. split; [exact H1|]. split; [exact H2|exact H3].
Qed.
(** With the PNG renderer at the resolution D: the size of the image in pixels. *)
Lemma scaled_px (w : float) (d : float) (D X K : R) : finite w -> finite d -> R_of d = D -> 1 <= D <= 2 ^ 60 -> Rabs (R_of w - X) <= K / 2 ->
  Rabs (R_of w) <= 132 * bpow radix2 919 -> Rabs (R_of w) / 2 ^ 50 + / 2 ^ 50 <= K ->
  finite (w / 72 * d)%float /\ Rabs (R_of (w / 72 * d)%float - X * D / 72) <= K * D.
Proof.
  intros Fw Fd VD [D1 D2] WX WB KB. destruct (int32 72 ltac:(lia)) as (_ & V72 & _). change (Float64.ofZ 72) with 72%float in V72.
  pose proof eta_pos as E0. pose proof (Rabs_pos (R_of w)) as P0.
  assert (D60 : D <= bpow radix2 60) by (change 60%Z with (Z.of_nat 60); rewrite bpow_nat; exact D2). clear D2.
  assert (WB2 : Rabs (R_of w) <= bpow radix2 927).
  { eapply Rle_trans; [exact WB|]. apply Rle_trans with (bpow radix2 8 * bpow radix2 919); [apply Rmult_le_compat_r; [apply bpow_ge_0|change (bpow radix2 8) with 256; lra]|].
    rewrite <- bpow_plus. apply bpow_le. lia. } clear WB.
  assert (P9 : bpow radix2 927 <= bpow radix2 960) by (apply bpow_le; lia).
  assert (R1 : rel 2 eta (w / 72)%float (R_of w / 72)).
  { rewrite <- V72. eapply rel_mono; [apply (div_rel 0 0); [apply rel_exact; [exact Fw|reflexivity]|lra|lra|lra|]|lra|lra]. pose proof (small_range (R_of w)). lra. }
  assert (WD : Rabs (R_of w / 72 * D) <= bpow radix2 987).
  { rewrite Rabs_mult. replace (bpow radix2 987) with (bpow radix2 927 * bpow radix2 60) by (rewrite <- bpow_plus; reflexivity).
    apply Rmult_le_compat; try apply Rabs_pos; [|rewrite Rabs_right; lra]. unfold Rdiv. rewrite Rabs_mult, (Rabs_right (/ 72)) by lra. lra. }
  assert (ED : eta * D <= bpow radix2 (-1015)) by (replace (bpow radix2 (-1015)) with (eta * bpow radix2 60) by (unfold eta; rewrite <- bpow_plus; reflexivity); apply Rmult_le_compat_l; lra).
  assert (ED0 : 0 <= eta * D) by (apply Rmult_le_pos; lra).
  assert (R2 : rel 4 (3 * (eta * D)) (w / 72 * d)%float (R_of w / 72 * D)).
  { rewrite <- VD. eapply rel_mono; [apply (mul_rel 2 eta); [exact R1|lra|lra|exact Fd|]|lra|].
    - rewrite VD, (Rabs_right D) by lra. assert (4 * bpow radix2 987 <= bpow radix2 1001) by (change 4 with (bpow radix2 2); rewrite <- bpow_plus; apply bpow_le; lia).
      assert (bpow radix2 (-1015) <= bpow radix2 987) by (apply bpow_le; lia). lra.
    - rewrite VD, Rabs_right by lra. assert (eta * 1 <= eta * D) by (apply Rmult_le_compat_l; lra). lra. }
  destruct R2 as [F R2]. split; [exact F|].
  assert (T : Rabs (R_of w / 72 * D - X * D / 72) <= K / 144 * D).
  { replace (R_of w / 72 * D - X * D / 72) with ((R_of w - X) * (D / 72)) by field. rewrite Rabs_mult, (Rabs_right (D / 72)) by lra.
    replace (K / 144 * D) with (K / 2 * (D / 72)) by field. apply Rmult_le_compat_r; lra. }
  assert (RR : 4 * u * Rabs (R_of w / 72 * D) + 3 * (eta * D) <= K / 2 * D).
  { rewrite Rabs_mult, (Rabs_right D) by lra. replace (4 * u * (Rabs (R_of w / 72) * D) + 3 * (eta * D)) with ((4 * u * Rabs (R_of w / 72) + 3 * eta) * D) by ring.
    apply Rmult_le_compat_r; [lra|]. unfold Rdiv at 1. rewrite Rabs_mult, (Rabs_right (/ 72)) by lra. rewrite u_val.
    assert (eta <= / 2 ^ 60). { replace (/ 2 ^ 60) with (bpow radix2 (-60)) by (change (-60)%Z with (- Z.of_nat 60)%Z; rewrite bpow_opp, bpow_nat; reflexivity). apply bpow_le. lia. }
    lra. }
  replace (R_of (w / 72 * d)%float - X * D / 72) with ((R_of (w / 72 * d)%float - R_of w / 72 * D) + (R_of w / 72 * D - X * D / 72)) by ring.
  eapply Rle_trans; [apply Rabs_triang|]. 
  assert (K0 : 0 <= K) by (pose proof (Rabs_pos (R_of w - X)); lra). pose proof (Rmult_le_pos K D K0 ltac:(lra)). lra.
Qed.
Theorem C92_pixels : forall (Fnt : Type) U range pf pq (sf : @sfnt float64 Fnt) dflt face_ok enc x l B (size : Qc) fsize fdpi (D : R) fnts calls,
  let f := chosen dflt fnts in
  let M := font_measures pq (on_paper sf) f (zq 72) in
  fair range -> 1 <= B <= 2 ^ 900 -> (0 <= size)%Qc -> is_number fsize size -> finite fdpi -> R_of fdpi = D -> 1 <= D <= 2 ^ 60 ->
  int32_font sf -> fonts_within B sf f size (zq 72) -> numbers_within B pf pq (em M size) ->
  IZR (zlen x) + 2 <= 2 ^ 19 -> parse_expr U x = Ok l -> Forall (fun n => is_math n = true) l -> Forall unresized l ->
  render U range pf sf dflt (png_dst face_ok enc) x fsize fdpi fnts = Some (calls, RetNil) ->
  let q := size_of_expression M x size (zq 72) l in
  let tall := real (x_h q + qmax (x_d q) 0) in
  let wide := real (x_w q) in
  let e := B * (IZR (zlen x) + 2) ^ 2 / 2 ^ 40 in
  exists c cmds marks (n pw ph : Z), calls = [c] /\ img_render face_ok c = LOk cmds /\ images cmds = [(pw, ph, marks)] /\
    tall - 3 * e <= IZR n < tall + 1 + 3 * e /\
    wide * D / 72 - 2 * e * D <= IZR pw < wide * D / 72 + 1 + 2 * e * D /\
    IZR n * D / 72 - 2 * e * D <= IZR ph < IZR n * D / 72 + 1 + 2 * e * D.
Proof.
  intros * FR BB SP NS FD VD DB I32 FW NW LN P OM UR R q tall wide e.
  destruct (picture_ap Fnt U range pf pq sf dflt _ x l B size fsize fdpi fnts calls RetNil FR BB SP NS I32 FW NW LN P OM UR R)
    as [(_ & p & X)|(b & ops & n & E & W1 & W2 & (H1 & H2 & H3) & WB & HB & N2 & BN)]; [discriminate X|].
  fold f M q in W2, H3. fold tall in H3. fold wide in W2. fold e in W2, H3.
  destruct (C58_render_png Fnt U range pf sf dflt face_ok enc x fsize fdpi fnts calls R) as (b' & gs & l' & s & ops' & cmds & ms & L & _ & E' & IR & _ & IM).
  cbn zeta in IM.
  assert (EB : (b_width b' / 72 = b_width b / 72)%float /\ (Float64.ceil (b_height b' + Float64.max (b_depth b') 0) / 72 = Float64.ceil (b_height b + Float64.max (b_depth b) 0) / 72)%float).
  { rewrite E in E'. assert (Q : dst_args b fdpi ops = dst_args b' fdpi ops') by congruence. unfold dst_args in Q.
    split; [apply (f_equal d_w) in Q|apply (f_equal d_h) in Q]; cbn [d_w d_h] in Q; symmetry; exact Q. }
  destruct EB as [EW EH]. rewrite EW, EH in IM.
  set (m := IZR (zlen x) + 2) in *. destruct BB as [B1 _].
  assert (BN1 : 1 <= B * m). { clear - B1 N2. replace 1 with (1 * 1) by ring. apply Rmult_le_compat; lra. }
  assert (KB : forall v, Rabs v <= 132 * (B * m) -> Rabs v / 2 ^ 50 + / 2 ^ 50 <= 2 * e).
  { intros v V. unfold e. replace (2 * (B * m ^ 2 / 2 ^ 40)) with (B * m * (m / 2 ^ 39)) by field.
    apply Rle_trans with (B * m * (2 / 2 ^ 39)); [clear - V BN1; lra|apply Rmult_le_compat_l; [clear - BN1; lra|clear - N2; lra]]. }
  assert (E0 : 0 <= e) by (pose proof (KB 0) as K0; rewrite Rabs_R0 in K0; specialize (K0 ltac:(clear - BN1; lra)); clear - K0; lra).
  destruct (scaled_px (b_width b) fdpi D wide (2 * e) W1 FD VD DB) as [F1 N1]; [clear - W2; lra|clear - WB BN BN1; lra|apply KB; clear - WB BN1; lra|].
  destruct (scaled_px (Float64.ceil (b_height b + Float64.max (b_depth b) 0)) fdpi D (IZR n) (2 * e) H1 FD VD DB) as [F2 N3];
    [rewrite H2; replace (IZR n - IZR n) with 0 by ring; rewrite Rabs_R0; clear - E0; lra|rewrite H2; clear - HB BN; lra|rewrite H2; apply KB; exact HB|].
  specialize (IM F1 F2). exists (dst_args b' fdpi ops'), cmds, ms, n. eexists _, _. split; [exact E'|]. split; [exact IR|]. split; [exact IM|]. split; [exact H3|].
  apply Rabs_le_inv in N1, N3.
  split.
  - pose proof (Zceil_ub (R_of (b_width b / 72 * fdpi)%float)) as C1. pose proof (Zceil_lb (R_of (b_width b / 72 * fdpi)%float)) as C2. clear - N1 C1 C2. lra.
  - match goal with |- _ <= IZR (Zceil ?r) < _ => pose proof (Zceil_ub r) as C1; pose proof (Zceil_lb r) as C2 end. clear - N3 C1 C2. lra.
Qed.

(** ** Case: one shape for all glyphs; the specified sizes are not all float64 numbers *)
Definition tiles : @sfnt float64 unit := {|
  sf_name := fun _ => Some "Tiles"; sf_index := fun _ r => Some r; sf_gname := fun _ _ => Some "g";
  sf_upem := fun _ => 1000%Z; sf_load := fun _ _ _ => true;
  sf_advance := fun _ _ _ => Some 400000%Z; sf_bounds := fun _ _ _ => Some (10, - 500, 400, 130)%Z;
  sf_kern := fun _ i j _ => if Z.eqb i j then KernIs 7 else KernNotFound; sf_xheight := fun _ _ _ => None;
  uni_L := fun r => ((65 <=? r) && (r <=? 122))%Z |}.
Example tiles_int32 : int32_font tiles.
Proof.
  split; [|split].
  - intros f i p a E. cbn [tiles sf_advance] in E. injection E as <-. lia.
  - intros f i p x0 y0 x1 y1 E. cbn [tiles sf_bounds] in E. injection E as <- <- <- <-. lia.
  - intros f i j p k E. cbn [tiles sf_kern] in E. destruct (Z.eqb i j); [|discriminate E]. injection E as <-. lia.
Qed.
Lemma tiles_metrics sym nm ty z d m : fst (metrics_of (on_paper tiles) toy_fonts sym (mk_font (A := exact) nm ty (Fin z)) (Fin d) true (new_ttf new_canvas)) = LOk m ->
  exists sl, m = met_of (A := exact) 400000 10 (- 500) 400 130 false sl (Fin z) (Fin d).
Proof.
  rewrite metrics_fresh, key_fin_refl. intros E.
  destruct (glyph_val (on_paper tiles) toy_fonts sym (mk_font (A := exact) nm ty (Fin z)) (Fin d) true) as [v|e] eqn:G; [|discriminate E].
  assert (Q : m = v_met v) by (inversion E; reflexivity). subst m. clear E. revert G.
  unfold glyph_val, get_glyph. cbn [f_type f_size on_paper tiles sf_name sf_index sf_gname sf_upem sf_load sf_advance sf_bounds uni_L].
  destruct (index sym true) as [r|]; cbn [need lbind]; [|discriminate].
  destruct (get_font toy_fonts _) as [f|]; cbn [need lbind]; [|discriminate].
  intros E. assert (Q : forall u w : @val exact unit, LOk u = LOk w -> u = w) by (intros u w X; inversion X; reflexivity). apply Q in E. subst v. cbn [v_met].
  eexists. reflexivity.
Qed.
Example tiles_within : fonts_within 1024 tiles toy_fonts (Q2Qc 10) (zq 72).
Proof.
  assert (S10 : real (Q2Qc 10) = 10) by (rewrite real_q; unfold Q2R; cbn; lra).
  split; [|split; [|split; [|split]]].
  - intros sym nm ty m E. apply tiles_metrics in E as (sl & ->). unfold met_of. cbn [m_adv m_height m_width m_xmin m_xmax m_ymin m_ymax].
    rewrite !exact_sc, exact_adv, !sub_fin, f0_exact, !add_fin. cbn [within]. rewrite !real_plus, !real_minus, !real_sc, real_adv, S10, real_0.
    change (- - 500)%Z with 500%Z. change (- (130))%Z with (-130)%Z. repeat split; apply Rabs_le; lra.
  - intros n1 t1 s1 n2 t2 s2 k E. destruct (String.eqb n1 n2) eqn:N.
    2: { rewrite kern_zero in E by exact N. assert (Q : k = Fin 0%Qc) by (inversion E; reflexivity). subst k. cbn [within]. rewrite real_0, Rabs_R0. lra. }
    apply String.eqb_eq in N. subst n2. rewrite kern_fresh in E by apply qeqb_refl.
    assert (K : forall v1 v2 : @val exact unit, kern_of (on_paper tiles) v1 v2 = LOk k -> within 1024 k).
    { intros v1 v2 X. unfold kern_of in X. destruct (v_font v1); cbn [need lbind] in X; [|discriminate X]. cbn [on_paper tiles sf_kern] in X.
      destruct (Z.eqb _ _).
      - rewrite ofZ_fin, div_fin in X by lia. assert (Q : k = Fin (zq 7 / zq 64)%Qc) by (inversion X; reflexivity). subst k. cbn [within]. rewrite real_over, real_zq by lia. apply Rabs_le. lra.
      - assert (Q : k = Fin 0%Qc) by (inversion X; reflexivity). subst k. cbn [within]. rewrite real_0, Rabs_R0. lra. }
    destruct (glyph_val _ _ s1 _ _ _) as [v1|e]; [|discriminate E]. destruct (String.eqb s2 s1 && String.eqb t2 t1); [now apply K in E|].
    destruct (glyph_val _ _ s2 _ _ _) as [v2|e]; [|discriminate E]. now apply K in E.
  - cbn [within]. rewrite S10. apply Rabs_le. lra.
  - cbn [within]. rewrite real_zq. apply Rabs_le. lra.
  - cbn [within]. rewrite real_mult, real_zq, S10. apply Rabs_le. lra.
Qed.
Definition twoq (v : string) : option xq := if String.eqb v "2" then Some (Fin (Q2Qc 2)) else None.
Example tiles_numbers : numbers_within 1024 two64 twoq (em (font_measures twoq (on_paper tiles) toy_fonts (zq 72)) (Q2Qc 10)).
Proof.
  assert (EM : Rabs (real (em (font_measures twoq (on_paper tiles) toy_fonts (zq 72)) (Q2Qc 10))) <= 100).
  { unfold em. cbn [font_measures adv]. unfold ask_metrics.
    destruct (fst (metrics_of _ _ _ _ _ _ _)) as [m|e] eqn:E; [|change (value (m_adv met0)) with 0%Qc; rewrite real_0, Rabs_R0; lra].
    apply tiles_metrics in E as (sl & ->). cbn [met_of m_adv]. rewrite exact_adv, value_fin, real_adv, real_q. unfold Q2R. cbn. apply Rabs_le. lra. }
  intros v x E. unfold two64 in E. unfold twoq at 1. destruct (String.eqb v "2"); [|discriminate E]. assert (x = 2%float) as -> by congruence.
  exists (Q2Qc 2). split; [reflexivity|]. revert EM. generalize (em (font_measures twoq (on_paper tiles) toy_fonts (zq 72)) (Q2Qc 10)). intros w EM.
  destruct (int32 2 ltac:(lia)) as (F & V & _). assert (R2 : real (Q2Qc 2) = 2) by (rewrite real_q; unfold Q2R; cbn; lra).
  split; [exact F|]. change (R_of 2%float) with (R_of (Float64.ofZ 2)). rewrite V, R2. split; [reflexivity|]. cbn [within]. rewrite R2, real_mult, R2.
  split; [apply Rabs_le; lra|]. rewrite Rabs_mult, (Rabs_right 2) by lra. lra.
Qed.
Definition c92_expr : string := "$xx+\frac{2b}{y}\hspace{2}\overline{z}$".
Definition c92_tree : list node := match parse_expr ascii_only c92_expr with Ok l => l | _ => [] end.
Definition c92_before : list (@request float64) := [RMetrics "x" (mk_font (A := float64) "default" "it" 10%float) 72%float true; RUnderline (mk_font (A := float64) "default" "rm" 20%float) 9%float].
Definition c92_dims : option (float * float * float) :=
  match mtex_parse ascii_only id_range (ttf_backend tiles toy_fonts) two64 c92_expr 10%float 72%float (after tiles toy_fonts c92_before (new_ttf new_canvas)) with
  | Some (LOk (t, None, _)) => Some (t_width t, t_height t, t_depth t) | _ => None end.
Definition c92_spec : list Q := let e := size_of_expression (font_measures twoq (on_paper tiles) toy_fonts (zq 72)) c92_expr (Q2Qc 10) (zq 72) c92_tree in [this (x_w e); this (x_h e); this (x_d e)].
Example C92_case : parse_expr ascii_only c92_expr = Ok c92_tree /\ Forall unresized c92_tree /\ Forall (fun n => is_math n = true) c92_tree /\
  (IZR (zlen c92_expr) + 2 <= 2 ^ 19) /\ Forall (at_size 10%float 72%float) c92_before /\
  c92_dims = Some (41.0322265625, 0x1.2cd5555555556p+3, 0x1.4d55555555555p+2)%float /\ c92_spec = [42017 # 1024; 1805 # 192; 125 # 24]%Q.
Proof.
  split; [vm_compute; reflexivity|]. split; [vm_compute; repeat (constructor || discriminate)|]. split; [vm_compute; repeat constructor|].
  split; [change (zlen c92_expr) with (Z.of_nat (String.length c92_expr)); cbn; lra|].
  split; [|split; vm_compute; reflexivity].
  constructor; [|constructor; [|constructor]]; [intros k m [E|[]]; injection E as <- <-; auto|intros k m []].
Qed.
Print Assumptions C92_box. Print Assumptions C92_picture. Print Assumptions C92_pixels.
