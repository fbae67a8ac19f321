(** Proof of the float64 picture bounds: lines over expressions. *)
From Coq Require Import ZArith String Ascii List Bool Lia QArith Qcanon Qreals Reals Lqa Lra Psatz.
From Flocq Require Import Core.Core IEEE754.BinarySingleNaN IEEE754.PrimFloat.
From Verif Require Import Utf8 Token Ast SetTable Parser Symbols PropSymbols TreeSpec Arith Exact OrderLaws Box Ship ShipSpec ShipFacts ShipFacts2
  PackSpec PackFacts ExactFacts PropPack PropShip Mtex MtexTable MtexSpec FracSpec MtexFacts MtexFacts2 MtexFacts4 MtexFacts5 PropMtex ReadSpec ReadFacts
  RadFacts GeomSpec GeomFacts GeomFacts2 SizeSpec SizeFacts Float64Facts PropError PropRows PropCost PicSpec Apx ApxSpec SizeApx TtfRound PicApxSpec PicApx PicApx2.
From Coq Require Import Floats Lra.
Import SizeSpec ApxSpec.
Import ListNotations.
Local Open Scope string_scope.
Local Open Scope list_scope.
Local Open Scope R_scope.


Section PicApxBar.
Context {S : Type}.
Variable be : @backend float64 S.
Variable parse_float : string -> option float.
Variable M : measures.
Variables (size dpi : Qc) (fsize fdpi : float) (B N : R).
Variables (fox foy : float) (rox roy no : R).
Notation tnode := (@Box.tnode float64).
Notation state := (@Box.state float64).
Notation face := (face size).
Hypothesis MB : measured64 B M size dpi fsize fdpi be parse_float.
Hypothesis B1 : 1 <= B.
Hypothesis BM : B <= bpow radix2 900.
Hypothesis N1 : 1 <= N.
Hypothesis NM : N <= bpow radix2 26.
Hypothesis NBIG : 512 <= N.
Notation ap := (Apx.ap B N).
Notation ap_add := (Apx.ap_add B N B1 BM N1 NM).
Notation ap_sub := (Apx.ap_sub B N B1 BM N1 NM).
Notation ap_mono := (Apx.ap_mono B N B1 N1).
Notation ap_max := (Apx.ap_max_sum B N B1 N1).
Notation ap_zero := (Apx.ap_zero B N B1 N1).
Notation hx := (SizeApx.hx B N).
Hypothesis AOX : ap 1 fox rox.
Hypothesis AOY : ap no foy roy.
Hypothesis NO : 0 <= no.
Notation tol := (PicApx.tol B N).
Notation drawn := (drawn tol fdpi).
Notation kr j := (real (kj j)).
Notation shr := PicApx.shr.
Notation looks := (looks fdpi B N fox foy rox roy no).
Notation vlooks := (vlooks fdpi B N fox foy rox roy no).
Notation hb := (hb fdpi B N fox foy rox roy no).
Notation child := (child fdpi B N fox foy rox roy no).
Notation keep := (keep B N B1 BM N1 NM).
Notation ap_about := (ap_about B N B1 N1).
Notation minus_0 := (minus_0 B N).
Notation plus_0 := (plus_0 B N).
Notation zero_plus := (zero_plus B N).
Notation half_rule r := (new_rule (A := float64) (fpinf float64) (frat 1 2 * r)%float (frat 1 2 * r)%float).
Lemma N128' : 128 <= N. Proof. lra. Qed.

Lemma bar_set64 inner e n r qr H qH lim nd k t : hx inner e n -> ap 1 r (real qr) -> ap k H (real qH) ->
  ap nd (t_depth inner) (real (x_d e)) -> ap nd lim (real (x_d e)) -> n + nd + nd + k + 200 <= N -> under_bar (A := float64) inner r H lim t ->
  exists b gs, t = TL KVList b f0 gs [half_rule r; glue_fill; inner] /\ b_size b = 0%Z /\ ap n (b_width b) (real (qmax 0 (x_w e))) /\ b_height b = H /\
  forall j, glue_upto (A := float64) (shg j gs) [shr j (half_rule r)] = 0%Z /\
    exists v, ap (n + nd + nd + k + 100) v (real (kj j * qmax 0 (qH - (qr + x_h e)))) /\
      glue_upto (A := float64) (shg j gs) [shr j (half_rule r); shr j glue_fill] = Float64.round (clamp (A := float64) v).
Proof.
  intros HX Ar AH Ad AL L (r0 & NV & V). pose proof HX as (bi & gi & li & nh & nd0 & -> & _ & L0 & W & Hh & Hd & _ & _). cbn [t_depth] in Ad.
  pose proof (ap_ge _ _ _ _ _ W). pose proof (ap_ge _ _ _ _ _ AH). pose proof (ap_ge _ _ _ _ _ Ad). pose proof (ap_ge _ _ _ _ _ Hh). pose proof (ap_ge _ _ _ _ _ Hd).
  pose proof (half_ok B N B1 BM N1 NM N128' _ _ Ar) as HR.
  set (l := [half_rule r; glue_fill; TL KHList bi f0 gi li]) in *.
  assert (NV0 : vpack (A := float64) f0 true (fpinf float64) (TL KVList (new_box f0 f0 f0) f0 gset0 l) = LOk r0) by exact NV. clear NV. rename NV0 into NV.
  assert (VF : vfold l dims0 = vfold l dims0) by reflexivity. unfold l in VF at 2.
  cbn [vfold vpack_dims new_rule glue_fill b_width b_height b_depth new_box d_h d_d d_w dims0 d_stretch d_shrink] in VF.
  rewrite (ap_inf _ _ _ _ _ W) in VF. change (finf float64 (fpinf float64)) with true in VF. cbv iota in VF. cbn [d_h d_d d_w d_stretch d_shrink] in VF.
  match type of VF with _ = LOk ?d => set (dm := d) in * end.
  cbn [vpack] in NV. rewrite VF in NV.
  match type of NV with LOk ?x = LOk _ => assert (NV' : r0 = x) by (inversion NV; reflexivity) end. clear NV. subst r0.
  cbn [vpack] in V. rewrite VF in V.
  match type of V with LOk ?x = LOk _ => assert (V' : t = x) by (inversion V; reflexivity) end. clear V. subst t.
  do 2 eexists. split; [reflexivity|]. cbn [b_size b_width b_height b_depth new_box]. split; [reflexivity|].
  split; [|split; [reflexivity|]].
  { unfold dm. cbn [d_w]. reals. eapply ap_mono; [apply ap_max; [exact ap_zero|exact W]|lra]. }
  set (x := if fltb float64 lim (d_d dm) then fadd float64 (d_h dm) (fsub float64 (d_d dm) lim) else d_h dm).
  match goal with |- context [shg _ (pack_glue ?g0 ?dd dm)] => pose proof (pack_glue_spec (A := float64) g0 (fsub float64 H x) dm l (vfold_tot l dims0 dm eq_refl eq_refl VF)) as GS; change dd with (fsub float64 H x) end.
  assert (AX : ap (nh + 30 + nd + nd + 2) x (real (qr + x_h e))).
  { unfold x. cbn [fadd fsub float64].
    assert (AHH : ap (nh + 30) (d_h dm) (real (qr + x_h e))).
    { unfold dm. cbn [d_h]. cbn [fadd fsub fmul float64]. rewrite !f0_is in *.
      eapply ap_mono; [eapply Apx.ap_val; [apply ap_add; [apply plus_0; apply ap_add; [do 2 apply zero_plus; exact HR|exact HR|lra]|apply zero_plus; exact Hh|lra]|]|]; [reals; rewrite ?real_rat; field|lra]. }
    destruct (fltb float64 lim (d_d dm)).
    - eapply ap_mono; [eapply Apx.ap_val; [apply ap_add; [exact AHH|apply ap_sub; [exact Ad|exact AL|lra]|lra]|ring]|lra].
    - eapply ap_mono; [exact AHH|lra]. }
  set (g := pack_glue _ _ _) in *. clearbody g. clearbody x.
  pose proof (ap_sub _ _ _ _ _ _ AH AX ltac:(lra)) as AD. change (fsub float64 H x) with (H - x)%float in GS. set (d := (H - x)%float) in *. clearbody d.
  rewrite <- real_minus in AD. set (qD := (qH - (qr + x_h e))%Qc) in *.
  assert (TS : forall o, (o <= 3)%nat -> tot_stretch (A := float64) l o = if Nat.eqb o 2 then 1%float else 0%float).
  { intros o Ho. unfold tot_stretch, l. cbn [flat_map new_rule glue_fill g_stretch_order g_stretch]. destruct o as [|[|[|o]]]; vm_compute; reflexivity. }
  assert (TK : forall o, (o <= 3)%nat -> PackSpec.zero (A := float64) (tot_shrink l o)).
  { intros o Ho. unfold tot_shrink, l. cbn [flat_map new_rule glue_fill g_shrink_order g_shrink]. destruct o as [|[|[|o]]]; vm_compute; reflexivity. }
  assert (RZ : R_of d = 0 -> PackSpec.zero (A := float64) d).
  { intros Z. change (PrimFloat.eqb d 0 = true). rewrite eqb_equiv, Beqb_correct; [|eapply ap_fin; exact AD|apply zero_int].
    rewrite (proj2 zero_int). apply Req_bool_true. exact Z. }
  assert (LT0 : fltb float64 f0 d = false -> R_of d <= 0).
  { rewrite f0_is, ltb_iff; [|apply zero_int|eapply ap_fin; exact AD]. rewrite (proj2 zero_int). destruct (Rlt_bool_spec 0 (R_of d)) as [LL|LL]; [intros Q; discriminate Q|]. auto. }
  assert (AM : ap (k + (nh + 30 + nd + nd + 2) + 1) (Float64.max 0 d) (real (qmax 0 qD))).
  { reals. eapply ap_mono; [apply ap_max; [exact ap_zero|exact AD]|lra]. }
  assert (VM : R_of (Float64.max 0 d) = Rmax 0 (R_of d)).
  { destruct (max_finite 0%float d (proj1 zero_int) (ap_fin _ _ _ _ _ AD)) as [_ V]. now rewrite V, (proj2 zero_int). }
  assert (R0 : forall j, glue_upto (A := float64) (shg j g) [shr j (half_rule r)] = 0%Z).
  { intros j. unfold new_rule. rewrite shr_rule. reflexivity. }
  assert (ZERO : R_of d <= 0 -> gs_sign g = 0%Z -> forall j, glue_upto (A := float64) (shg j g) [shr j (half_rule r)] = 0%Z /\
    exists v, ap (n + nd + nd + k + 100) v (real (kj j * qmax 0 qD)) /\
      glue_upto (A := float64) (shg j g) [shr j (half_rule r); shr j glue_fill] = Float64.round (clamp (A := float64) v)).
  { intros Dn S0 j. split; [apply R0|]. exists 0%float. split.
    - rewrite <- (mulj_0 j). eapply ap_mono; [eapply (keep j (k + (nh + 30 + nd + nd + 2) + 1) (k + (nh + 30 + nd + nd + 2) + 1 + 37)); [|lra|lra|lra]|lra].
      eapply Apx.ap_eq; [exact AM|apply zero_int|]. rewrite VM, (proj2 zero_int), Rmax_left; lra.
    - unfold glue_upto, elastics, glue_fill, new_rule. rewrite shr_rule, shr_glue. cbn [flat_map elastic shg gs_sign]. rewrite S0. vm_compute. reflexivity. }
  inversion GS as [g0 Z S0 E0|g0 NZ LT S0 HI ST E0|g0 NZ LT S0 HI ST E0|g0 NZ S0 RG E0]; subst g0.
  - apply ZERO; [|exact S0]. rewrite (eqb_zero d (ap_fin _ _ _ _ _ AD) Z). lra.
  - assert (O2 : gs_order g = 2%nat).
    { destruct HI as (Ho & Hz & _). rewrite TS in Hz by assumption.
      destruct (Nat.eqb_spec (gs_order g) 2) as [->|]; [reflexivity|]. exfalso. apply Hz. vm_compute. reflexivity. }
    rewrite O2, TS in ST by lia. cbn [Nat.eqb] in ST. change (fdiv float64 d 1%float) with (d / 1)%float in ST.
    intros j. split; [apply R0|]. exists (mulj j (d / 1) * 1)%float.
    assert (PD : 0 < R_of d).
    { rewrite f0_is, ltb_iff in LT; [|apply zero_int|eapply ap_fin; exact AD]. rewrite (proj2 zero_int) in LT. destruct (Rlt_bool_spec 0 (R_of d)); [assumption|discriminate LT]. }
    assert (AD' : ap (k + (nh + 30 + nd + nd + 2) + 1) d (real (qmax 0 qD))).
    { eapply Apx.ap_eq; [exact AM|eapply ap_fin; exact AD|]. rewrite VM, Rmax_right; lra. }
    destruct one_int as [F1' V1'].
    split.
    + replace (real (kj j * qmax 0 qD)) with (real (kj j * qmax 0 qD) * 1) by ring.
      eapply ap_mono; [apply (ap_small B N B1 BM N1 NM (k + (nh + 30 + nd + nd + 2) + 1 + 2 + 37)); [eapply (keep j (k + (nh + 30 + nd + nd + 2) + 1 + 2))|lra|apply const_exact; apply one_int|apply Rabs_le; lra]|lra]; [|lra|lra|lra].
      eapply Apx.ap_val; [apply (Apx.div_ap B N B1 BM N1 NM) with (k := 1); [exact AD'|lra|exact V1'|lra]|field].
    + unfold glue_upto, elastics, glue_fill, new_rule. rewrite shr_rule, shr_glue. cbn [flat_map elastic shg gs_sign gs_order gs_set g_stretch_order g_stretch].
      rewrite S0. cbn [Z.eqb Pos.eqb]. rewrite O2, ST. cbn [Nat.eqb app]. reflexivity.
  - destruct HI as (Ho & Hz & _). destruct (Hz (TK _ Ho)).
  - apply ZERO; [|exact S0]. destruct (fltb float64 f0 d) eqn:LT; [|auto].
    specialize (RG 2%nat). rewrite TS in RG by lia. cbn [Nat.eqb] in RG. assert (Q : PackSpec.zero (A := float64) 1%float) by (apply RG; lia). vm_compute in Q. discriminate Q.
Qed.

Lemma looks_1 K t f n : looks K t f n -> looks 1 t f (K * n).
Proof. intros (Y & L). split; [exact Y|]. intros. eapply L; [eassumption|eassumption|lra|lra]. Qed.
Variable K : R.
Hypothesis K1 : 1 <= K.
Lemma bar_child64 inner e f n r qr H qH lim nd k t : hb K inner (e, f) n -> ap 1 r (real qr) -> 0 <= R_of r -> ap k H (real qH) ->
  ap nd (t_depth inner) (real (x_d e)) -> ap nd lim (real (x_d e)) -> nd + k <= n + 30 -> 4 * n + 400 <= N -> under_bar (A := float64) inner r H lim t ->
  child (K + 6) t (Join (Move 0 (qr - qH) (Stroke (qmax 0 (x_w e)) qr)) (Move 0 (qr + x_h e - qH) (Drop (qmax 0 (qH - (qr + x_h e))) f))) (n + 120).
Proof.
  intros HB Ar R0 AH Ad AL ND L UB. pose proof HB as [HX Lk]. cbn [fst snd] in *. pose proof (hx_ge _ _ _ _ _ HX) as G. pose proof (ap_ge _ _ _ _ _ AH) as Gk. pose proof (ap_ge _ _ _ _ _ Ad) as Gd.
  destruct (bar_set64 _ _ _ _ _ _ _ _ _ _ _ HX Ar AH Ad AL ltac:(lra) UB) as (b & gs & -> & BS & BW & BH & SN).
  pose proof HX as (bi & gi & li & nh & ndi & EI & BI & L0 & _ & Hh & Hd & _ & _). pose proof (ap_ge _ _ _ _ _ Hh). pose proof (ap_ge _ _ _ _ _ Hd). subst inner. clear UB.
  set (qD := qmax 0 (qH - (qr + x_h e))) in *.
  pose proof (half_ok B N B1 BM N1 NM N128' _ _ Ar) as HR.
  assert (HR' : ap 12 (frat 1 2 * r)%float (real (qr * Q2Qc (1 # 2)))) by (eapply Apx.ap_val; [exact HR|reals; rewrite real_rat; field]). clear HR.
  assert (PR : 0 <= R_of (frat 1 2 * r)%float).
  { apply mul_nonneg; [vm_compute; reflexivity|eapply ap_fin; exact Ar|eapply ap_fin; exact HR'| |exact R0].
    change (@frat float64 1 2) with (1 / 2)%float. destruct one_int as [F1 V1], two_int as [F2 V2].
    destruct (div_rnd 1 2%float F1) as [_ DV]; [rewrite V2; lra|rewrite V1, V2; rewrite Rabs_pos_eq by lra; apply Rle_trans with 1; [lra|change 1 with (bpow radix2 0); apply bpow_le; lia]|].
    rewrite DV, V1, V2. apply rnd_pos. lra. }
  pose proof (Rmult_le_pos K n ltac:(lra) G) as GK. pose proof (Rmult_le_pos K k ltac:(lra) Gk) as GKk.
  set (cn := TL KHList bi f0 gi li) in *.
  assert (VL : vlooks 1 (TL KVList b f0 gs [half_rule r; glue_fill; cn])
    (Join (Move 0 (qr - qH) (Stroke (qmax 0 (x_w e)) qr)) (Move 0 (qr + x_h e - qH) (Drop qD f))) (K * n + 4 * n + 600)).
  { split.
    - apply young_list. rewrite BS. split; [lia|]. constructor; [split; [exact I|constructor; [cbn; lia|constructor]]|].
      constructor; [split; [exact I|constructor; [cbn; lia|constructor]]|]. constructor; [apply Lk|constructor].
    - intros j x v X Y m m' HX0 HY L1 L2. pose proof (ap_ge _ _ _ _ _ HX0). pose proof (ap_ge _ _ _ _ _ HY).
      rewrite shr_tl, draws_unfold. cbn [map t_box]. cbn [each app].
      destruct (SN j) as (S0 & w & Av & GU). destruct (glue_round B N B1 N1 NM _ _ _ Av ltac:(lra)) as [AZ DZ]. set (z := Float64.round (clamp (A := float64) w)) in *.
      set (bx := shb j b). set (g := shg j gs) in *.
      assert (AW' : ap (n + 37) (b_width bx) (kr j * real (qmax 0 (x_w e)))).
      { unfold bx, shb. cbn [b_width]. rewrite <- real_mult. apply (keep j n); [exact BW|lra|lra|lra]. }
      set (top := (v - b_height bx)%float).
      assert (V0 : ap (m' + (k + 37) + 1) (vpos g top []) (Y - real (kj j * qH))).
      { unfold vpos. cbn [ShipSpec.after]. unfold top, bx, shb. cbn [b_height]. rewrite BH. apply ap_sub; [exact HY|eapply (keep j); [exact AH|lra|lra|lra]|lra]. }
      assert (V1 : ap (m' + (k + 37) + 1 + 76) (vpos g top [shr j (half_rule r)]) (Y - real (kj j * qH) + real (kj j * qr))).
      { change [shr j (half_rule r)] with ([] ++ [shr j (half_rule r)]). rewrite vpos_snoc. apply (below_rule B N B1 BM N1 NM N128' _ qr HR' PR); [exact V0|lra]. }
      assert (EG : exists gg, shr j glue_fill = TGlue gg /\ g_width gg = 0%float).
      { eexists. split; [unfold glue_fill; apply shr_glue|]. cbn [g_width]. rewrite f0_is. apply mulj_0. }
      destruct EG as (gg & EG & GW). rewrite EG in *.
      assert (V2 : ap (m' + (k + 37) + 1 + 76 + (n + nd + nd + k + 102) + 1) (vpos g top [shr j (half_rule r); TGlue gg]) (Y - real (kj j * qH) + real (kj j * qr) + IZR z)).
      { change [shr j (half_rule r); TGlue gg] with ([shr j (half_rule r)] ++ [TGlue gg]). rewrite vpos_snoc. unfold below, glue_size. cbn [app]. rewrite S0, GU, GW. cbn [fadd fsub float64].
        change (0 - fofZ float64 0)%float with 0%float. change (fofZ float64 z) with (Float64.ofZ z).
        apply ap_add; [exact V1| |lra]. apply zero_plus. eapply ap_mono; [exact AZ|lra]. }
      assert (NG : forall pre, vdraw (A := float64) fox foy bx g x v pre (TGlue gg) = []) by reflexivity. rewrite NG. cbn [app]. rewrite app_nil_r.
      apply drawn_join.
      + eapply drawn_move; [eapply (rule_drawn fdpi B N fox foy rox roy no B1 BM N1 NM N128' AOX AOY NO _ qr HR' PR j bx g x v []); [exact HX0|exact V0|exact AW'|lra|lra]|reals; ring|reals; ring].
      + eapply drawn_move; [cbn [PicApxSpec.drawn]; exists (IZR z); split; [rewrite <- real_mult; exact DZ|]| reflexivity|reflexivity].
        eapply drawn_eq; [eapply (sub_drawn fdpi B N fox foy rox roy no); [..|exact (looks_1 _ _ _ _ Lk)|exact Hh|exact HX0|exact V2|lra|lra|lra]|reflexivity|reals; ring|reals; ring]; assumption. }
  split; [apply VL|]. split; [exact I|].
  intros j bx gs' x v pre X Y m m' HX0 HY L1 L2. change (@f0 float64) with 0%float in *.
  assert (LB : K * n + 4 * n + 640 <= (K + 6) * (n + 120)).
  { replace ((K + 6) * (n + 120)) with (K * n + 6 * n + 120 * K + 720) by ring. lra. }
  pose proof (vlooks_child fdpi B N fox foy rox roy no B1 BM N1 NM NO _ _ _ _ _ _ (K * n + 4 * n + 640) 0 0%Qc VL) as VC.
  assert (AZ : ap 0 0%float (real 0)) by (rewrite real_0; exact ap_zero).
  specialize (VC AZ ltac:(lra) ltac:(lra) j bx gs' x v pre X Y m m' HX0 HY ltac:(lra) ltac:(lra)).
  eapply drawn_eq; [exact VC|reflexivity|ring|rewrite real_0; ring].
Qed.
Lemma one_wide e f n t m w : SizeApx.rep M size fsize fdpi B N (Solid e) t m -> child (K + 6) t f n -> ap w (t_width t) (real (x_w e)) -> 0 <= w ->
  forall n', m <= n' -> n <= n' -> w + 1 <= n' -> 38 <= n' ->
  rep2 M size fsize fdpi B N fox foy rox roy no (K + 6) (Solid e, f) t n'.
Proof.
  intros R C A P n' L1 L2 L3 L4. split; [eapply SizeApx.rep_more; eassumption|]. split.
  - eapply child_more; [|exact C|exact L2]; lra.
  - cbn [fst]. exists (n' - 1). split; [lra|]. split; [lra|]. eapply ap_mono; [exact A|lra].
Qed.
Notation stt typ := (SizeApx.at_font fdpi (SizeApx.fface fsize typ)).
Lemma wrap_hb64 body b n t (s : S) : hb K body b n -> 40 <= n -> n + 20 <= N -> natural_h (A := float64) [body] t -> hb K t b (n + 3).
Proof.
  intros HB L1 L2 NH. destruct b as [e f]. pose proof HB as [HX _]. cbn [fst] in HX. pose proof HX as (b0 & gs0 & l0 & nh & nd & EB & _ & _ & _ & _ & _ & P1 & P2).
  assert (H : hb K t (box_of M [(Solid e, f)]) (n + 1 + 2)).
  { refine (natural_hb be parse_float M size dpi fsize fdpi B N fox foy rox roy no MB B1 BM N1 NM N128' K K1 _ _ _ _ s _ _ _ NH); [|lra|].
    - apply reps2_one. apply (hb_rep2 M size fsize fdpi B N fox foy rox roy no B1 BM N1 NM K K1 _ _ _ HB). lra.
    - intros x [<-|[]]. rewrite EB. exact I. }
  unfold box_of in H. cbn [map fst] in H. rewrite (row_one M e P1 P2) in H. replace (n + 3) with (n + 1 + 2) by ring.
  destruct H as [H (Y & LK)]. split; [exact H|]. split; [exact Y|]. cbn [snd] in *. intros j bx x v X Y0 m m' HX0 HY L3 L4.
  specialize (LK j bx x v X Y0 m m' HX0 HY L3 L4). cbn [lay PicApxSpec.drawn] in LK. destruct LK as (c1 & c2 & -> & D & ->). rewrite app_nil_r.
  eapply drawn_eq; [exact D|reflexivity|rewrite real_0; ring|rewrite real_0; ring].
Qed.

Lemma overline_hb64 body e f n typ s t s' : hb K body (e, f) n -> 40 <= n -> 4 * n + 600 <= N -> overline_box be body (stt typ) s = LOk (t, s') ->
  let th := line M (face typ) in let c := clearance size dpi in
  hb (K + 6) t (overline M th c e, lined th 0 (x_w e) (x_h e + (th + th + th) + c) (e, f)) (n + 150).
Proof.
  intros HB L40 L E th0 c0. pose proof HB as [HX _]. cbn [fst snd] in *.
  pose proof (overline_size be parse_float M size dpi fsize fdpi B N MB B1 BM N1 NM N128' _ _ _ _ _ _ _ HX ltac:(lra) E) as HS.
  apply (overline_ok be eq_refl) in E as (th & s1 & rule & T1 & T2 & OV); [|reflexivity|eapply hx_stiff; exact HX].
  pose proof MB as (_ & _ & _ & _ & _ & ML & _). unfold thick in T1, T2. apply ML in T1 as (T1 & _); [|reflexivity]. apply ML in T2 as (T2 & TP & _); [|reflexivity].
  change (line M _) with th0 in T1. change (line M _) with th0 in T2.
  destruct OV as (inner & rhs & NA & UB & NB).
  apply (reads_ap B N B1 N128') in T1, T2. pose proof (thrice_ok B N B1 BM N1 NM N128' _ _ T1) as T3. pose proof (extra_ok be parse_float M size dpi fsize fdpi B N MB B1 BM N1 NM N128' typ) as EX.
  pose proof HX as (b & gs & l & nh & nd & -> & BS & LL & AW & AH & AD & P1 & P2).
  pose proof (ap_ge _ _ _ _ _ AW). pose proof (ap_ge _ _ _ _ _ AH). pose proof (ap_ge _ _ _ _ _ AD).
  unfold above, beneath in UB. cbn [t_height t_depth t_shift] in UB. change (@f0 float64) with 0%float in *. cbn [fadd fsub float64] in UB.
  set (qH := (x_h e + (th0 + th0 + th0) + c0)%Qc).
  assert (AHH : ap (nh + 14 + 1 + 6 + 1) (b_height b - 0 + fofZ float64 3 * th + extra (stt typ))%float (real qH)).
  { unfold qH. reals. apply ap_add; [apply ap_add; [now apply minus_0|rewrite !real_plus in T3; exact T3|lra]|exact EX|lra]. }
  pose proof (wrap_hb64 _ _ _ _ s HB L40 ltac:(lra) NA) as HI.
  assert (ID : ap nd (t_depth inner) (real (x_d e))).
  { unfold natural_h, list_of in NA. cbn [hpack fold_left hpack_dims dims0 d_w d_h d_d] in NA. rewrite (ap_inf _ _ _ _ _ AH), (ap_inf _ _ _ _ _ AD) in NA. cbn [orb d_w d_h d_d] in NA.
    rewrite NA. cbn [t_depth b_depth]. change (@f0 float64) with 0%float. apply real_pos in P2.
    eapply ap_mono; [eapply Apx.ap_val; [apply ap_max; [exact ap_zero|apply plus_0; exact AD]|rewrite Rmax_right; lra]|lra]. }
  pose proof (bar_child64 inner e f (n + 3) rule th0 _ qH _ nd _ rhs HI T2 TP AHH ID (plus_0 _ _ _ AD) ltac:(lra) ltac:(lra) UB) as CH.
  destruct (bar_set64 inner e (n + 3) rule th0 _ qH _ nd _ rhs (proj1 HI) T2 AHH ID (plus_0 _ _ _ AD) ltac:(lra) UB) as (br & gr & ER & _ & BW & _).
  destruct (bar_ok M size fsize fdpi B N B1 BM N1 NM inner e rule th0 _ _ qH (n + 28) rhs (n + 3) (nh + 14 + 1 + 6 + 1) (proj1 HI) T2 AHH nd ID (plus_0 _ _ _ AD)) as [R ST]; [lra|lra|exact UB|].
  set (fig := Join _ _) in CH.
  assert (H2 : hb (K + 6) t (box_of M [(Solid (mk_ext (qmax 0 (x_w e)) qH (x_d e)), fig)]) (n + 140 + 2)).
  { refine (natural_hb be parse_float M size dpi fsize fdpi B N fox foy rox roy no MB B1 BM N1 NM N128' (K + 6) _ _ _ _ _ s _ _ _ NB); [lra| |lra|].
    - apply reps2_one. eapply (one_wide _ _ (n + 3 + 120) _ _ (n + 3)); [exact R|exact CH| |lra|lra|lra|lra|lra].
      rewrite ER. exact BW.
    - intros x [<-|[]]. exact ST. }
  split; [eapply hx_more; [exact B1|exact N1|exact HS|lra]|]. cbn [snd].
  apply (looks_more fdpi B N fox foy rox roy no (K + 6) ltac:(lra)) with (n := n + 140 + 2); [|lra].
  destruct H2 as [_ (Y & LK)]. split; [exact Y|]. cbn [snd] in LK. intros j bx x v X Y0 m m' HX0 HY L3 L4.
  specialize (LK j bx x v X Y0 m m' HX0 HY L3 L4). unfold box_of in LK. cbn [snd lay] in LK. change (drawn (kr j) (X + rox) (Y0 + roy) (Join (Move 0 0 fig) Blank) (draws (A := float64) fox foy false bx (shr j t) x v)) in LK.
  destruct LK as (c1 & c2 & -> & D & ->). rewrite app_nil_r.
  unfold lined. cbn [fst snd]. fold qH. eapply drawn_eq; [exact D|reflexivity|rewrite real_0; ring|rewrite real_0; ring].
Qed.
End PicApxBar.
