(** Roots write nothing to the log in exact arithmetic, when the radical sign grows with
    its font size. *)
From Coq Require Import ZArith String List Bool Lia QArith Qcanon Lqa.
From Verif Require Import Utf8 Token Ast Arith Exact OrderLaws Box Warn Mtex MtexFacts MtexFacts5 FracSpec GeomSpec PropMtex ExactFacts GeomFacts GeomFacts2 RadFacts RoomFacts
  LogMtex LogFacts LogQuiet LogFloat.
Import ListNotations.
Local Open Scope string_scope.
Local Open Scope list_scope.
Local Open Scope Z_scope.

Lemma PX_any a b x : PX a x -> 0 <= b -> PX b x.
Proof. intros (_ & H) K. now split. Qed.
Lemma PX_fin k q : 0 <= k -> PX k (Fin q).
Proof. intros K. split; [exact K|eauto]. Qed.
Lemma fresh_hbox k t : fresh PX k t -> exists w h d, hbox_of t w h d /\ (0 <= h)%Qc /\ (0 <= d)%Qc.
Proof.
  intros (b & gs & l & -> & (_ & w & W) & (x & y & (_ & h & X) & (_ & d & Y) & _) & G1 & G2). rewrite X in G1. rewrite Y in G2.
  apply exact_le in G1. apply exact_le in G2. exists w, h, d. split; [|now split]. exists b, gs, l. auto.
Qed.
Lemma hbox_fresh k t w h d : 0 <= k -> hbox_of t w h d -> (0 <= h)%Qc -> (0 <= d)%Qc -> fresh PX k t.
Proof.
  intros K (b & gs & l & -> & W & H & D) H0 D0. exists b, gs, l. split; [reflexivity|]. split; [rewrite W; now apply PX_fin|].
  rewrite H, D. split; [|split; now apply exact_le]. exists 0, 0. repeat split; try lia; eauto.
Qed.
(** Any list whose size and shift are finite can stand in a row. *)
Definition any {X : Type} : X -> Prop := fun _ => True.
Local Notation silent := (silent any).
Local Notation gives := (gives any).
Lemma gives_val {S X} (m : M S X) (Q : X -> Prop) : (forall s x s', m s = LOk (x, s') -> Q x) -> gives m Q.
Proof. intros H s x s' _ E. split; [exact I|eauto]. Qed.
Lemma any_keeps {A : arith} {S} (be : @backend A S) : keeps any be.
Proof. split; intros; intros s x s' _ _; (split; exact I). Qed.
Lemma tl_item dpi kd b sh gs l (w h d s : Qc) : b_width b = Fin w -> b_height b = Fin h -> b_depth b = Fin d -> sh = Fin s -> LogQuiet.item (A := exact) PX dpi any 1 (TL kd b sh gs l).
Proof.
  intros W H D ->. unfold LogQuiet.item. cbn [t_width t_height t_depth above beneath]. rewrite W, H, D.
  assert (Q : forall a, exists m, fmax exact f0 (Fin a) = Fin m) by (intros a; exists (qmax 0 a); apply fmax_fin).
  split; [now apply PX_fin|]. split; [exists 0; now apply PX_fin|]. split; [exists 0; now apply PX_fin|].
  change (fsub exact (Fin h) (Fin s)) with (Fin (h - s)%Qc). change (fadd exact (Fin d) (Fin s)) with (Fin (d + s)%Qc).
  split; [exists 0; now apply PX_fin|]. split; [exists 0; now apply PX_fin|]. split; [|exact I].
  destruct (Q (h - s)%Qc) as (m & E1). destruct (Q (d + s)%Qc) as (n & E2). exists 0, 0. rewrite E1, E2. split; [now apply PX_fin|]. split; [now apply PX_fin|lia].
Qed.
Lemma silent_and {S X} (w : W S X) (m : M S X) (Q R : X -> Prop) : silent w Q -> same w m -> gives m R -> silent w (fun x => Q x /\ R x).
Proof. intros H K G s J. destruct (H s J) as [H1 H2]. split; [exact H1|]. intros x s' E. split; [exact I|]. split; [eapply H2; eauto|]. rewrite (K s) in E. eapply G; eauto. Qed.

Section Root.
Context {S : Type}.
Variable be : @backend exact S.
Variable parse_float : string -> option xq.
Variables size dpi : xq.
Variable line : @Box.font exact -> xq -> xq.
Hypothesis Hmet : forall sym f d m s x s', be_metrics be sym f d m s = LOk (x, s') ->
  PX 1 (m_adv x) /\ PX 1 (m_width x) /\ PX 1 (m_iceberg x) /\ PX 1 (m_height x) /\ PX 1 (m_ymax x) /\ PX 1 (m_ymin x) /\
  (forall v y, parse_float v = Some y -> PX 1 (fmul exact (m_adv x) y)).
Hypothesis Hkern : forall f a g b d s x s', be_kern be f a g b d s = LOk (x, s') -> PX 1 x.
Hypothesis Hline0 : forall f d s x s', be_underline be f d s = LOk (x, s') -> x = line f d /\ PX 1 x /\ le f0 x.
Hypothesis Hsize : PX 1 (fdiv exact (fmul exact size dpi) (fofZ exact 1200)) /\ le f0 (fdiv exact (fmul exact size dpi) (fofZ exact 1200)).
(** The ink of the radical sign is not empty, and as high as its font is large. *)
Hypothesis Hsign : forall f d s x s', be_metrics be "\__sqrt__" f d true s = LOk (x, s') ->
  m_height x <> Fin 0 /\
  forall k s1 x1 s2, be_metrics be "\__sqrt__" (scale_font (Fin k) f) d true s1 = LOk (x1, s2) -> m_height x1 = fmul exact (m_height x) (Fin k).
Let lim := 1000.
Let EL := exact_laws lim.
Lemma lim_big : 1000 <= lim. Proof. unfold lim. lia. Qed.
(** A row of few finite items. *)
Let kern : forall f a g b s x s', any f -> any g -> any s -> be_kern be f a g b dpi s = LOk (x, s') -> PX 1 x.
Proof. intros. eapply Hkern; eauto. Qed.
Let met : forall sym f m s x s', any f -> any s -> be_metrics be sym f dpi m s = LOk (x, s') ->
  PX 1 (m_adv x) /\ PX 1 (m_width x) /\ PX 1 (m_iceberg x) /\ PX 1 (m_height x) /\ PX 1 (m_ymax x) /\ PX 1 (m_ymin x) /\
  (forall v y, parse_float v = Some y -> PX 1 (fmul exact (m_adv x) y)).
Proof. intros * _ _ E. exact (Hmet _ _ _ _ _ _ _ E). Qed.
Notation item := (item (A := exact) PX dpi any).
Notation item3 := (item3 (A := exact) PX dpi any).
Lemma row_silent l : Forall (item 1) l -> (List.length l <= 4)%nat -> silent (w_hlist_of be l true) (fresh PX 100).
Proof.
  intros F N. apply (silent_weak _ (fresh PX (4 * Z.of_nat (List.length l)))).
  - apply (w_hlist_P PX lim EL exact_order lim_big be any (any_keeps be) dpi any kern); [|unfold lim; lia]. clear N. induction F as [|x l X F IH]; [apply pushed_nil|].
    eapply pushed_mono; [apply (pushed_cons PX dpi any 1); [exact X|exact IH]|]. cbn [List.length]. lia.
  - intros x X. apply fresh_hbox in X as (w & h & d & X & H & D). eapply hbox_fresh; eauto. lia.
Qed.

Lemma char_value c st s ch s' : new_char be c st true s = LOk (ch, s') ->
  exists m, be_metrics be c (st_font st) (st_dpi st) true s = LOk (m, s') /\ c_metrics ch = m /\ (c_width ch = m_adv m \/ c_width ch = m_width m) /\ c_height ch = m_iceberg m /\ c_depth ch = fopp exact (fsub exact (m_iceberg m) (m_height m)).
Proof. unfold new_char. intros E. apply bind_ok in E as (m & s1 & E1 & E). apply ret_ok in E as [-> ->]. exists m. split; [exact E1|]. split; [reflexivity|]. split; [cbn; destruct (String.eqb c " "); auto|]. split; reflexivity. Qed.

Lemma sign_value (h d : Qc) st s t s' : f_name (st_font st) = "default" ->
  auto_height_char be "\__sqrt__" (Fin h) (Fin d) st f0 s = LOk (t, s') ->
  exists bc sc gc lc wc hc dc, t = TL KHList bc (Fin sc) gc lc /\ b_width bc = Fin wc /\ b_height bc = Fin hc /\ b_depth bc = Fin dc /\
    (h <= hc - sc)%Qc /\ (d <= dc + sc)%Qc.
Proof.
  intros NM E. unfold auto_height_char in E. rewrite NM in E. cbn [String.eqb negb] in E.
  apply bind_ok in E as (x & s1 & _ & E). apply bind_ok in E as (ch & s2 & E2 & E).
  apply bind_ok in E as ((c2, sh) & s3 & E3 & E). apply bind_ok in E as (hl & s4 & E4 & E). apply ret_ok in E as [-> _].
  change (String.eqb "default" "") with false in E3. cbn [negb] in E3. change (feqb exact f0 f0) with true in E3. cbv zeta iota in E3.
  apply bind_ok in E3 as (ch' & s5 & E5 & E3). apply ret_ok in E3 as [E3 _]. assert (c2 = ch') by congruence. assert (sh = fsub exact (Fin d) (c_depth ch')) by congruence. subst c2 sh. clear E3.
  apply char_value in E2 as (m & M1 & _ & _ & C1 & C2). apply char_value in E5 as (m' & M2 & MM & DW & D1 & D2).
  cbn [st_font st_dpi] in M2.
  destruct (Hmet _ _ _ _ _ _ _ M1) as (_ & _ & (_ & i & I) & (_ & g & G) & _).
  destruct (Hmet _ _ _ _ _ _ _ M2) as ((_ & av' & AV) & (_ & wd' & WD) & (_ & i' & I') & (_ & g' & G') & _).
  destruct (Hsign _ _ _ _ _ M1) as [NZ SC]. rewrite G in NZ.
  assert (FC : fdiv exact (fadd exact (Fin h) (Fin d)) (fadd exact (c_height ch) (c_depth ch)) = Fin ((h + d) / g)%Qc).
  { rewrite C1, C2, I, G. rewrite fsub_fin, fopp_fin, !fadd_fin. replace (i + - (i - g))%Qc with g by ring.
    cbn [fdiv exact xdiv]. destruct (qeqb g 0) eqn:Q; [|reflexivity]. apply qeqb_iff in Q. congruence. }
  rewrite FC in M2. apply SC in M2. rewrite G, G', fmul_fin in M2. apply fin_inj in M2.
  assert (TOT : (g' = h + d)%Qc). { rewrite M2. field. intros ->. now apply NZ. }
  rewrite D2, I', G', fsub_fin, fopp_fin, fsub_fin. unfold hlist_of in E4. apply bind_ok in E4 as (l & s6 & E6 & E4). apply ret_ok in E4 as [-> _].
  cbn [fst snd] in *. cbn [kern_list kerning hd_error] in E6. unfold mbind, mret in E6. 
  unfold list_of. cbn [hpack set_shift].
  set (sc := (d - - (i' - g'))%Qc).
  assert (CW : exists cw, c_width ch' = Fin cw) by (destruct DW as [-> | ->]; eauto). destruct CW as (cw & CW).
  assert (FIN : exists wc, d_w (fold_left (fun dd x => hpack_dims x dd) l dims0) = Fin wc /\
    d_h (fold_left (fun dd x => hpack_dims x dd) l dims0) = Fin (qmax 0 i') /\ d_d (fold_left (fun dd x => hpack_dims x dd) l dims0) = Fin (qmax 0 (- (i' - g')))).
  { assert (CH : exists wc, hpack_dims (TChar ch') dims0 = mk_dims (Fin wc) (Fin (qmax 0 i')) (Fin (qmax 0 (- (i' - g')))) zeros zeros).
    { cbn [hpack_dims dims0 d_w d_h d_d d_stretch d_shrink]. rewrite CW, D1, D2, I', G'. fins. rewrite !fmax_fin. eauto. }
    destruct CH as (wc & CH).
    destruct (negb _) in E6.
    - match type of E6 with LOk (?a, _) = _ => assert (LL : l = a) by congruence end. subst l. cbn [fold_left]. rewrite CH.
      cbn [new_kern hpack_dims d_w d_h d_d t_width]. rewrite MM, AV, CW. fins. eauto.
    - match type of E6 with LOk (?a, _) = _ => assert (LL : l = a) by congruence end. subst l. cbn [fold_left]. rewrite CH. cbn [d_w d_h d_d]. eauto. }
  destruct FIN as (wc & F1 & F2 & F3).
  assert (SC' : Fin (d - - (i' - g')) = Fin sc) by reflexivity.
  do 7 eexists. split; [reflexivity|]. cbn [b_width b_height b_depth]. rewrite F1, F2, F3. fins.
  split; [reflexivity|]. split; [reflexivity|]. split; [reflexivity|].
  destruct (qmax_ge 0 i') as [_ Q1]. destruct (qmax_ge 0 (- (i' - g'))) as [_ Q2]. unfold sc. rewrite TOT in *. clear -Q1 Q2. split; ql.
Qed.

Lemma shrink_hbox t w h d : hbox_of t w h d -> (0 <= h)%Qc -> (0 <= d)%Qc ->
  gives (shrink be t) (fun t' => exists w h d, hbox_of t' w h d /\ (0 <= h)%Qc /\ (0 <= d)%Qc).
Proof.
  intros (b & gs & l & -> & W & H & D) H0 D0. cbn [shrink]. apply (gives_bind _ _ (fun _ => True)); [apply shrink_list, any_keeps|]. intros l' _. apply gives_ret.
  cbv zeta. assert (F : exists k, @shrink_factor exact = Fin k /\ (0 <= k)%Qc) by (eexists; split; [reflexivity|discriminate]). destruct F as (k & F & K).
  assert (Z0 : fmul exact (Fin 0) shrink_factor = Fin 0) by (rewrite F, fmul_fin; apply f_equal; ring).
  assert (BX : exists w h d, b_width (box_shrink b) = Fin w /\ b_height (box_shrink b) = Fin h /\ b_depth (box_shrink b) = Fin d /\ (0 <= h)%Qc /\ (0 <= d)%Qc).
  { unfold box_shrink. cbv zeta. destruct (_ <? _).
    - exists (w * k)%Qc, (h * k)%Qc, (d * k)%Qc. cbn [scale_box box_size b_width b_height b_depth]. rewrite W, H, D, F, !fmul_fin. do 3 (split; [reflexivity|]). 
      split; (replace 0%Qc with (0 * k)%Qc by ring); now apply Qcmult_le_compat_r.
    - exists w, h, d. cbn [box_size b_width b_height b_depth]. auto. }
  destruct BX as (w' & h' & d' & W' & H' & D' & H0' & D0').
  exists w', h', d'. split; [|auto]. rewrite ?Z0. destruct (_ <? _); (eexists _, _, _; split; [reflexivity|auto]).
Qed.

Lemma root_silent root body st kr kb : fresh PX kb body -> match root with Some r => fresh PX kr r | None => True end ->
  at_st size dpi st -> silent (w_sqrt_box be root body st) (fresh PX 100).
Proof.
  intros FB FR AT. pose proof AT as [[NM SZ] DP]. apply fresh_hbox in FB as (w & h & d & HB & H0 & D0). pose proof HB as (bb & gb & lb & EB & BW & BH & BD).
  unfold w_sqrt_box. apply (silent_bind _ _ (fun x => x = line (st_font st) (st_dpi st) /\ PX 1 x /\ le f0 x)).
  { apply silent_quiet, gives_val. intros s x s' E. eapply Hline0; eauto. }
  intros th (ET & (_ & t & TH) & GT). rewrite TH in *. apply exact_le in GT. change (0 <= t)%Qc in GT. cbv zeta.
  assert (AB : fadd exact (fsub exact (t_height body) (t_shift body)) (fmul exact (fofZ exact 5) (Fin t)) = Fin (h + (t + t + t + t + t))).
  { rewrite EB. cbn [t_height t_shift]. rewrite BH. fins. apply f_equal. ring. }
  assert (BN : fadd exact (t_depth body) (t_shift body) = Fin d) by (rewrite EB; cbn [t_depth t_shift]; rewrite BD; fins; apply f_equal; ring).
  rewrite AB, BN.
  apply (silent_bind _ _ (fun c => item3 6 10 (0 + 8) c /\ exists bc sc gc lc wc hc dc, c = TL KHList bc (Fin sc) gc lc /\ b_width bc = Fin wc /\ b_height bc = Fin hc /\ b_depth bc = Fin dc /\
    (h + (t + t + t + t + t) <= hc - sc)%Qc /\ (d <= dc + sc)%Qc)).
  { eapply silent_and; [|apply same_ahc|].
    - apply (ahc_P PX lim EL exact_order lim_big be any (any_keeps be) parse_float size dpi any True (fun _ _ => I) (fun _ _ _ _ => I) met kern); [exact I|exact AT|now apply PX_fin|now apply exact_le|unfold lim; lia].
    - apply gives_val. intros s x s' E. eapply sign_value; eauto. }
  intros check (_ & bc & sc & gc & lc & wc & hc & dc & -> & CW & CH & CD & L1 & L2).
  cbn [t_height t_depth t_shift t_width]. rewrite CW, CH, CD.
  assert (T2 : fmul exact (fofZ exact 2) (Fin t) = Fin (t + t)) by (fins; apply f_equal; ring). rewrite T2.
  assert (P0 : forall q, PX 1 (Fin q)) by (intros q; now apply PX_fin).
  assert (HBX : forall q, item 1 (hbox (Fin q))).
  { intros q. destruct (hbox_item3 PX lim EL exact_order dpi any 1 (Fin q) 0 0 (P0 q) ltac:(lia) ltac:(lia)) as (A1 & A2 & A3 & A4 & A5 & A6 & A7 & A8).
    split; [exact A1|]. repeat split; try assumption. exists 0, 0. auto with zarith. }
  apply (silent_bind _ _ (fun p => fresh PX 100 p /\ natural_h [hbox (Fin (t + t)); body; hbox (Fin (t + t))] p)).
  { eapply silent_and; [|apply same_hlist|].
    - apply row_silent; [|cbn; lia]. repeat (apply Forall_cons || apply Forall_nil); auto.
      rewrite EB. eapply tl_item; eauto.
    - apply gives_val. intros s x s' E. apply (hlist_stiff be eq_refl) in E as [E _]; [exact E|]. intros y I. cbn in I. destruct I as [<-|[<-|[<-|[]]]]; try exact Logic.I. now rewrite EB. }
  intros p (_ & NP). destruct (padded_box _ _ _ _ _ _ NP HB H0 D0) as (bp & gp & EP & Wp & Hp & Dp & _).
  set (rule := new_rule (A := exact) PInf (Fin (GeomFacts.half * t)) (Fin (GeomFacts.half * t))).
  apply (silent_bind _ _ (fun r => r = rule)).
  { apply silent_quiet. unfold hrule. change (fltb exact (fopp exact f1) f0) with true. cbv iota. apply (gives_bind _ _ (fun x => x = Fin t)).
    { apply gives_val. intros s x s' E. rewrite ET. now apply Hline0 in E. }
    intros u ->. apply gives_ret. reflexivity. }
  intros r ->.
  destruct (under_fold (w + (t + t + t + t)) h d t bp gp [hbox (Fin (t + t)); body; hbox (Fin (t + t))] Wp Hp Dp) as (s1 & s2 & VF). fold rule in VF. rewrite <- EP in VF.
  apply (silent_bind _ _ (fun r => exists bv gv, r = TL KVList bv (Fin 0) gv [rule; glue_fill; p] /\ natural_v [rule; glue_fill; p] r)).
  { apply (silent_weak _ (fun r => (exists bv gv, r = TL KVList bv (Fin 0) gv [rule; glue_fill; p]) /\ natural_v [rule; glue_fill; p] r)).
    2: { intros x ((bv & gv & E) & N). eauto. }
    eapply silent_and; [|apply same_vlist|].
    - eapply (silent_vlist PX lim EL) with (K := 0); [exact VF|now apply PX_fin|unfold lim; lia|exists 0; now apply PX_fin|eauto].
    - apply gives_val. intros s x s' E. now apply vlist_ok in E. }
  intros r0 (bv & gv & ER & NV).
  rewrite SZ, DP. destruct Hsize as [(_ & e & EE) GE]. rewrite EE in *. apply exact_le in GE. change (0 <= e)%Qc in GE. rewrite fsub_fin, !fadd_fin.
  set (H := (hc - sc + e)%Qc).
  apply (silent_bind _ _ (fun r => exists b gs, r = TL KVList b (Fin 0) gs [rule; glue_fill; p] /\ b_width b = Fin (qmax 0 (w + (t + t + t + t))) /\ b_height b = Fin H /\ b_depth b = Fin d)).
  { apply (silent_weak _ (fun r => True /\ exists b gs, r = TL KVList b (Fin 0) gs [rule; glue_fill; p] /\ b_width b = Fin (qmax 0 (w + (t + t + t + t))) /\ b_height b = Fin H /\ b_depth b = Fin d)); [|now intros x [_ X]].
    eapply silent_and; [|apply same_vpack|].
    - intros s _. split; [|now split]. unfold w_vpack, wbind, say, quiet. cbn [fst snd].
      assert (LG : vpack_log (Fin H) false (Fin (dc + sc)) r0 = []).
      { rewrite ER. unfold vpack_log. rewrite VF. cbn [d_d d_h]. rewrite fltb_fin, (proj2 (qltb_false (dc + sc) d)) by assumption. cbv zeta iota.
        unfold pack_log, set_glue_log. rewrite fsub_fin. destruct (feqb exact _ f0) eqn:Q; [reflexivity|].
        assert (QQ : fltb exact f0 (Fin (H - (t + h))) = true).
        { rewrite f0_exact, fltb_fin. apply qltb_iff. assert (NN : (0 <= H - (t + h))%Qc) by (unfold H; clear -L1 GE GT; ql).
          apply Qcle_lt_or_eq in NN as [NN|NN]; [exact NN|]. exfalso. rewrite <- NN in Q. discriminate Q. }
        rewrite QQ. assert (ST : determine_order (s1) = 2%nat); [|cbn [d_stretch]; now rewrite ST].
        unfold rule, glue_fill in VF. rewrite EP in VF. cbn [vfold vpack_dims new_rule b_width b_height b_depth new_box d_h d_d d_w dims0 d_stretch d_shrink g_width] in VF.
        assert (S1 : s1 = add_at 2 f1 zeros) by (inversion VF; reflexivity). rewrite S1. apply (fill_order PX lim EL exact_order). }
      rewrite LG. destruct (vpack (Fin H) false (Fin (dc + sc)) r0); reflexivity.
    - apply gives_val. intros s x s' E. unfold mlift in E. destruct (vpack (Fin H) false (Fin (dc + sc)) r0) as [y|] eqn:V in E; [|discriminate E]. apply ret_ok in E as [-> _].
      rewrite EP in NV. destruct (under_packed (w + (t + t + t + t)) h d t H (dc + sc) bp gp _ Wp Hp Dp L2 r0 y NV V) as (b & gs & E1 & E2 & E3 & E4 & _).
      exists b, gs. rewrite <- EP in E1. auto. }
  intros rhs (br & gr & -> & RW & RH & RD).
  apply (silent_bind _ _ (fun x => exists w, indexbox x w)).
  { apply silent_quiet. destruct root as [r|].
    - apply fresh_hbox in FR as (wr & hr & dr & HR & R1 & R2). eapply gives_bind; [eapply shrink_hbox; eauto|].
      intros r1 (w1 & h1 & d1 & HR1 & R3 & R4). apply gives_val. intros s x s' E. destruct (shrink_hbox _ _ _ _ HR1 R3 R4 _ _ _ I E) as (_ & w2 & h2 & d2 & HR2 & R5 & R6). exists w2. right. eauto.
    - apply gives_ret. exists (wc * GeomFacts.half)%Qc. left. reflexivity. }
  intros ix (wi & IX).
  apply (silent_bind _ _ (fun i => fresh PX 100 i)).
  { apply row_silent; [|cbn; lia]. apply Forall_cons; [|apply Forall_nil]. destruct IX as [-> |(hr & dr & (b & gs & l & -> & E1 & E2 & E3) & _)]; [apply HBX|eapply tl_item; eauto]. }
  intros i FI. apply fresh_hbox in FI as (wi' & hi & di & (bi & gi & li & -> & W' & H' & D') & _).
  assert (VI : exists s1 s2, vfold [TL KHList bi (Fin 0) gi li] (dims0 (A := exact)) = LOk (mk_dims (Fin (qmax 0 wi')) (Fin hi) (Fin di) s1 s2)).
  { cbn [vfold vpack_dims dims0 d_d d_h d_w]. rewrite W', H', D', finf_fin. do 2 eexists. apply f_equal, mk_dims_eq; [|fins; apply f_equal; ring|reflexivity].
    rewrite f0_exact, fmax_fin. reflexivity. }
  destruct VI as (v1 & v2 & VI).
  apply (silent_bind _ _ (fun v => exists b gs, v = TL KVList b (Fin 0) gs [TL KHList bi (Fin 0) gi li] /\ b_width b = Fin (qmax 0 wi') /\ b_height b = Fin (0 + hi) /\ b_depth b = Fin di)).
  { eapply (silent_vlist PX lim EL) with (K := 0); [exact VI|now apply PX_fin|unfold lim; lia|exists 0; now apply PX_fin|]. intros gs. eexists _, _. split; [reflexivity|]. cbn [d_w d_h d_d b_width b_height b_depth]. auto. }
  intros vl (b2 & gs2 & -> & W2 & H2 & D2). cbn [set_shift].
  apply row_silent; [|cbn; lia]. repeat (apply Forall_cons || apply Forall_nil).
  - eapply tl_item; eauto. rewrite frat_35. fins. reflexivity.
  - fins. destruct (kern_item PX lim EL exact_order dpi any (Fin (- wc * GeomFacts.half))) as (A1 & A2 & A3 & A4 & A5 & _ & A7); [now apply PX_fin|].
    split; [now apply PX_fin|]. repeat split; try assumption. exists 0, 0. unfold new_kern. cbn [above beneath t_height t_depth]. rewrite !f0_exact, !fmax_fin. split; [now apply PX_fin|]. split; [now apply PX_fin|lia].
  - eapply tl_item; eauto.
  - eapply tl_item; eauto.
Qed.
End Root.
