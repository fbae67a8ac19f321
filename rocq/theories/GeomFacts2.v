(** Geometry of overlines and radicals in exact arithmetic. *)
From Coq Require Import ZArith String Ascii List Bool Lia QArith Qcanon Lqa.
From Verif Require Import Arith Exact OrderLaws Box Ship ShipSpec ShipFacts ShipFacts2 PackSpec PackFacts ExactFacts PropPack PropShip
  FracSpec PropMtex GeomSpec GeomFacts.
Import ListNotations.
Local Open Scope string_scope.
Local Open Scope list_scope.
Local Open Scope Z_scope.

(** ** Packed horizontal lists have non-negative height and depth *)
Definition ge0 (x : xq) : Prop := match x with Fin q => (0 <= q)%Qc | NInf => False | _ => True end.
Lemma ge0_max a b : ge0 a -> ge0 (xmax a b).
Proof.
  destruct a as [a| | |]; cbn [ge0]; try tauto; intros H; destruct b as [b| | |]; cbn; try exact I; try assumption.
  destruct (qltb b a) eqn:E; [assumption|]. cbn. apply qltb_false in E. eapply Qcle_trans; eassumption.
Qed.
Lemma hfold_ge0 l : forall d : @dims exact, ge0 (d_h d) -> ge0 (d_d d) ->
  ge0 (d_h (fold_left (fun d x => hpack_dims x d) l d)) /\ ge0 (d_d (fold_left (fun d x => hpack_dims x d) l d)).
Proof.
  induction l as [|x l IH]; intros d H1 H2; cbn [fold_left]; [auto|]. apply IH.
  - destruct x; cbn [hpack_dims]; try destruct (_ || _); cbn [d_h]; try assumption; apply ge0_max; assumption.
  - destruct x; cbn [hpack_dims]; try destruct (_ || _); cbn [d_d]; try assumption; apply ge0_max; assumption.
Qed.
Lemma natural_h_box l t : natural_h (A:=exact) l t -> exists b gs, t = TL KHList b (Fin 0) gs l /\ b_size b = 0 /\ ge0 (b_height b) /\ ge0 (b_depth b).
Proof.
  intros ->. cbn [hpack list_of]. do 2 eexists. split; [reflexivity|]. cbn [b_size b_height b_depth new_box]. split; [reflexivity|].
  apply hfold_ge0; cbn [d_h d_d dims0]; rewrite f0_exact; apply Qcle_refl.
Qed.

Lemma draws_box_width ox oy W b t (x v : xq) : draws (A:=exact) ox oy false (box_width W b) t x v = draws ox oy false b t x v.
Proof. destruct t; reflexivity. Qed.

(** ** A bar over a box *)
Section Under.
Variables (w h d t H lim : Qc) (bi : @Box.box exact) (gi : @Box.gset exact) (li : list (@Box.tnode exact)).
Hypotheses (Ew : b_width bi = Fin w) (Eh : b_height bi = Fin h) (Ed : b_depth bi = Fin d).
Hypotheses (T0 : (0 <= t)%Qc) (DL : (d <= lim)%Qc).
Let body := TL KHList bi (Fin 0) gi li.
Let rule := new_rule (A:=exact) PInf (Fin (half * t)) (Fin (half * t)).
Let l := [rule; glue_fill; body].
Let D := (H - (t + h))%Qc.

Lemma under_fold : exists s1 s2, vfold l dims0 = LOk (mk_dims (Fin (qmax 0 w)) (Fin (t + h)) (Fin d) s1 s2).
Proof.
  unfold l, rule, glue_fill, body. cbn [vfold vpack_dims new_rule b_width b_height b_depth new_box d_h d_d d_w dims0 d_stretch d_shrink g_width].
  rewrite Ew, Eh, Ed. do 2 eexists. apply f_equal, mk_dims_eq; [| |reflexivity].
  - rewrite f0_exact, !finf_fin. change (finf exact PInf) with true. cbv iota. now rewrite fmax_fin.
  - rewrite f0_exact. fins. apply f_equal. rewrite <- (qsum_half t) at 3. ring.
Qed.

Lemma under_packed r0 rhs : natural_v l r0 -> vpack (Fin H) false (Fin lim) r0 = LOk rhs ->
  exists b gs, rhs = TL KVList b (Fin 0) gs l /\ b_width b = Fin (qmax 0 w) /\ b_height b = Fin H /\ b_depth b = Fin d /\
    ((0 <= D)%Qc -> (this D <= billion)%Q -> glue_upto gs [rule; glue_fill] = qround D).
Proof.
  destruct under_fold as (s1 & s2 & VF). intros N0 N1. unfold natural_v, list_of in N0. cbn [vpack] in N0. rewrite VF in N0.
  injection N0 as <-. 
  match type of N1 with vpack _ _ _ (TL _ ?b ?sh ?g _) = _ => pose proof (fun Hv => C26_vpack_glue exact (Fin H) false (Fin lim) b sh g l rhs Hv) as GS end.
  specialize (GS N1). cbn [vpack] in N1. rewrite VF in N1. cbn [d_d d_h d_w] in N1.
  rewrite fltb_fin, (proj2 (qltb_false lim d)) in N1 by assumption. injection N1 as <-.
  do 2 eexists. split; [reflexivity|]. cbn [b_width b_height b_depth]. do 3 (split; [reflexivity|]).
  intros D0 DB. destruct GS as (x & NH & GS). cbn [t_height b_height t_glue] in GS.
  assert (EX : x = Fin (t + h)).
  { destruct (NH (Fin 0) (new_box f0 f0 f0) f0 gset0) as (t1 & V1 & H1). cbn [vpack] in V1. rewrite VF in V1. cbn [d_d d_h d_w] in V1.
    rewrite fltb_fin, (proj2 (qltb_false lim d)) in V1 by assumption. injection V1 as <-. cbn [t_height b_height] in H1.
    change (fadd exact (Fin 0) ?a) with (xadd (Fin 0) a) in H1. rewrite !xadd_0_l in H1. 
    rewrite <- H1. apply f_equal. ring. }
  subst x. fold D in GS. change (fsub exact (Fin H) (Fin (t + h))) with (Fin D) in GS.
  set (g := pack_glue (pack_glue _ _ _) _ _) in *. clearbody g.
  assert (TS : forall o, (o <= 3)%nat -> tot_stretch l o = if Nat.eqb o 2 then Fin 1 else Fin 0).
  { intros o Ho. unfold tot_stretch, l, rule, body. cbn [flat_map new_rule glue_fill g_stretch_order g_stretch]. destruct o as [|[|[|o]]]; reflexivity. }
  inversion GS as [g0 Z S0 E0|g0 NZ LT S0 HI ST E0|g0 NZ LT S0 HI ST E0|g0 NZ S0 RG E0]; subst g0.
  - rewrite natural_upto by assumption. apply zero_iff in Z. apply fin_inj in Z. rewrite Z. reflexivity.
  - destruct HI as (O3 & NZO & HI).
    assert (O2 : gs_order g = 2%nat).
    { destruct (Nat.eqb (gs_order g) 2) eqn:E; [now apply Nat.eqb_eq|]. exfalso. apply NZO. rewrite TS, E by assumption. now apply zero_iff. }
    rewrite O2, TS in ST by lia. cbn [Nat.eqb] in ST.
    assert (EG : gs_set g = Fin D).
    { rewrite ST. cbn [fdiv exact xdiv qeqb]. change (Fin (D / 1) = Fin D). apply f_equal. field. discriminate. }
    unfold glue_upto, elastics, rule. cbn [flat_map elastic glue_fill new_rule app g_stretch_order g_stretch]. rewrite S0, O2. cbn [Z.eqb Pos.eqb Nat.eqb app].
    assert (FS : fsum [@f1 exact] = Fin 1) by reflexivity. rewrite FS, EG, fmul_fin, Qcmult_1_r, clamp_id; [reflexivity|].
    unfold Qcle in D0. change (this 0%Qc) with 0%Q in D0. assert (0 <= billion)%Q by (unfold billion; discriminate). split; [lra|assumption].
  - exfalso. rewrite f0_exact, fltb_fin in LT. apply qltb_false in LT. apply NZ, zero_iff. apply f_equal. now apply Qcle_antisym.
  - exfalso. destruct (fltb exact f0 (Fin D)) eqn:LT.
    + specialize (RG 2%nat). rewrite TS in RG by lia. cbn [Nat.eqb] in RG. apply zero_iff in RG; [|lia]. discriminate RG.
    + rewrite f0_exact, fltb_fin in LT. apply qltb_false in LT. apply NZ, zero_iff. apply f_equal. now apply Qcle_antisym.
Qed.

Lemma under_drawn r0 rhs : natural_v l r0 -> vpack (Fin H) false (Fin lim) r0 = LOk rhs -> (0 <= D)%Qc -> (this D <= billion)%Q ->
  exists adj : Qc, (- (1 # 2) <= this adj <= 1 # 2)%Q /\
  forall ox oy bx (x v : Qc), b_height bx = Fin H -> b_width bx = Fin (qmax 0 w) ->
  draws ox oy true bx rhs (Fin x) (Fin v) =
  bar (xadd (Fin x) ox) (xadd (Fin (v - H + t)) oy) (Fin (qmax 0 w)) (Fin t) t ++
  draws ox oy false bi body (Fin x) (Fin (v + adj)).
Proof.
  intros N0 N1 D0 DB. destruct (under_packed _ _ N0 N1) as (b & gs & -> & _ & _ & _ & GU). specialize (GU D0 DB).
  exists (Q2Qc (inject_Z (qround D)) - D)%Qc. split.
  { rewrite this_minus. pose proof (qround_bound D) as B. cbn [this Q2Qc]. rewrite Qred_correct. exact B. }
  intros ox oy bx x v BH BW. rewrite draws_unfold. unfold l. cbn [each]. rewrite app_nil_r.
  unfold rule at 1. cbn [new_rule vdraw glue_fill app]. unfold body at 1. cbn [vdraw is_vlist t_height].
  rewrite BH, BW. change (vpos gs ?a []) with a. unfold vpos. cbn [after app]. unfold rule. rewrite fsub_fin, below_rule by assumption.
  rewrite draws_box_width, Eh, vis_rule. unfold bar. cbn [b_height b_depth b_width new_box]. fins. rewrite qsum_half.
  apply f_equal2.
  - destruct (qltb 0 t); [|reflexivity]. unfold run. change (finf exact PInf) with true. cbv iota. reflexivity.
  - assert (BG : forall q, below gs [rule] glue_fill (Fin q) = Fin (q + Q2Qc (inject_Z (qround D)))).
    { intros q. change (fadd exact (Fin q) (fadd exact (fsub exact f0 (fofZ exact (glue_upto gs [rule]))) (fofZ exact (glue_upto gs [rule; glue_fill]))) =
        Fin (q + Q2Qc (inject_Z (qround D)))). rewrite GU.
      assert (G0 : glue_upto gs [rule] = 0) by reflexivity. rewrite G0, f0_exact, !fofZ_exact, xofZ_0. fins. change (xofZ (qround D)) with (Fin (Q2Qc (inject_Z (qround D)))). fins. apply f_equal. ring. }
    unfold rule in BG. rewrite BG. fins. f_equal; apply f_equal; unfold D; ring.
Qed.
End Under.

(** ** Wrapping *)
Lemma ge0_fin q : ge0 (Fin q) -> (0 <= q)%Qc. Proof. exact (fun H => H). Qed.

(** A list of one unshifted horizontal list. *)
Lemma wrap_box x w h d t : natural_h (A:=exact) [x] t -> hbox_of x w h d -> (0 <= h)%Qc -> (0 <= d)%Qc ->
  exists b gs, t = TL KHList b (Fin 0) gs [x] /\ b_width b = Fin w /\ b_height b = Fin h /\ b_depth b = Fin d.
Proof.
  intros -> (b0 & gs0 & l & -> & E1 & E2 & E3) H1 H2. cbn [hpack list_of]. do 2 eexists. split; [reflexivity|].
  cbn [b_width b_height b_depth fold_left hpack_dims d_h d_d d_w dims0]. rewrite E1, E2, E3, f0_exact, !finf_fin. cbn [orb d_h d_d d_w].
  fins. rewrite !fmax_fin. repeat split; apply f_equal.
  - ring.
  - rewrite qmax_r; [ring|qc].
  - rewrite qmax_r; [ring|qc].
Qed.
Lemma wrap_draws ox oy bx b gs x w h d (x0 v : Qc) : hbox_of x w h d ->
  draws (A:=exact) ox oy false bx (TL KHList b (Fin 0) gs [x]) (Fin x0) (Fin v) = draws ox oy false (t_box x) x (Fin x0) (Fin v).
Proof.
  intros (b0 & gs0 & l & -> & _). rewrite draws_unfold. cbn [each]. rewrite app_nil_r. cbn [hdraw is_vlist t_box].
  change (hpos gs (Fin x0) []) with (Fin x0). fins. f_equal. apply f_equal. ring.
Qed.

Lemma hdraw_h ox oy bx g x v pre (y : @Box.tnode exact) b sh gs l : y = TL KHList b sh gs l ->
  hdraw ox oy bx g x v pre y = draws ox oy false b y (hpos g x pre) (fadd exact v sh).
Proof. intros ->. reflexivity. Qed.
Lemma hdraw_v ox oy bx g x v pre (y : @Box.tnode exact) b sh gs l : y = TL KVList b sh gs l ->
  hdraw ox oy bx g x v pre y = draws ox oy true b y (hpos g x pre) (fadd exact v sh).
Proof. intros ->. reflexivity. Qed.
Lemma halves t : fmul exact (frat 1 2) (Fin t) = Fin (half * t). Proof. reflexivity. Qed.

Lemma overlined_drawn body w h d t e tr :
  overlined (A:=exact) body (Fin t) (Fin t) (Fin e) tr -> hbox_of body w h d ->
  (0 <= h)%Qc -> (0 <= d)%Qc -> (0 <= t)%Qc -> (0 <= t + t + e)%Qc -> (this (t + t + e)%Qc <= billion)%Q ->
  overline_drawn body w h t e tr /\ size_of tr (qmax 0 w) (h + (t + t + t) + e) d.
Proof.
  intros (inner & rhs & N1 & (r0 & N2 & V) & N3) HB H0 D0 T0 E0 EB.
  assert (Ha : fadd exact (fadd exact (above body) (fmul exact (fofZ exact 3) (Fin t))) (Fin e) = Fin (h + (t + t + t) + e)).
  { destruct HB as (b & gs & l & -> & E1 & E2 & E3). unfold above. cbn [t_height t_shift]. rewrite E2. fins. apply f_equal. ring. }
  assert (Hb : beneath body = Fin d).
  { destruct HB as (b & gs & l & -> & E1 & E2 & E3). unfold beneath. cbn [t_depth t_shift]. rewrite E3. fins. apply f_equal. ring. }
  rewrite Ha, Hb in V.
  destruct (wrap_box _ _ _ _ _ N1 HB H0 D0) as (bi & gi & -> & Wi & Hi & Di).
  rewrite !halves in N2.
  set (H := (h + (t + t + t) + e)%Qc) in *.
  assert (HD : (H - (t + h) = t + t + e)%Qc) by (unfold H; ring).
  destruct (under_packed w h d t H d bi gi [body] Wi Hi Di (Qcle_refl d) r0 rhs N2 V) as (b & gs & ER & BW & BH & BD & _).
  destruct (under_drawn w h d t H d bi gi [body] Wi Hi Di T0 (Qcle_refl d) r0 rhs N2 V) as (adj & AJ & DR); [rewrite HD; assumption..|].
  assert (P0 : (0 <= H)%Qc) by (unfold H; qc).
  split.
  - exists adj. split; [exact AJ|]. intros ox oy x v. rewrite N3. cbn [hpack list_of]. rewrite draws_unfold. cbn [each]. rewrite app_nil_r.
    rewrite (hdraw_v _ _ _ _ _ _ _ _ _ _ _ _ ER). change (hpos ?g (Fin x) []) with (Fin x). fins.
    rewrite DR by assumption. rewrite (wrap_draws ox oy bi bi gi body w h d _ _ HB). unfold H.
    apply f_equal2; [f_equal; apply f_equal2; [apply f_equal; ring|reflexivity]|f_equal; apply f_equal; ring].
  - rewrite N3, ER. unfold size_of. cbn [hpack list_of t_width t_height t_depth b_width b_height b_depth fold_left hpack_dims d_h d_d d_w dims0].
    rewrite BW, BH, BD, f0_exact, !finf_fin. cbn [orb d_h d_d d_w]. fins. rewrite !fmax_fin. repeat split; apply f_equal.
    + ring.
    + rewrite qmax_r; [unfold H; ring|qc].
    + rewrite qmax_r; [ring|qc].
Qed.

(** The index of a radical: a space or an unshifted horizontal list. *)
Definition indexbox (r : @Box.tnode exact) (wr : Qc) : Prop :=
  r = hbox (Fin wr) \/ exists hr dr, hbox_of r wr hr dr /\ (0 <= hr)%Qc /\ (0 <= dr)%Qc.

Lemma root_drawn r wr inner vl sh : indexbox r wr -> natural_h (A:=exact) [r] inner -> natural_v [inner] vl ->
  exists b gs, set_shift (Fin sh) vl = TL KVList b (Fin sh) gs [inner] /\ b_width b = Fin (qmax 0 wr) /\
  forall ox oy (x v : Qc), draws ox oy true b (set_shift (Fin sh) vl) (Fin x) (Fin v) = draws ox oy false (t_box r) r (Fin x) (Fin v).
Proof.
  intros IB N1 N2.
  assert (X : exists bi gi h d, inner = TL KHList bi (Fin 0) gi [r] /\ b_width bi = Fin wr /\ b_height bi = Fin h /\ b_depth bi = Fin d /\
     forall ox oy bx (x v : Qc), draws ox oy false bx inner (Fin x) (Fin v) = draws ox oy false (t_box r) r (Fin x) (Fin v)).
  { destruct IB as [->|(hr & dr & HB & H0 & D0)].
    - unfold natural_h in N1. subst inner. cbn [hpack list_of]. eexists _, _, 0%Qc, 0%Qc. split; [reflexivity|].
      cbn [fold_left hpack_dims hbox new_box b_width b_height b_depth dims0 d_w d_h d_d]. rewrite f0_exact, !finf_fin. cbn [orb d_w d_h d_d].
      rewrite fmax_fin. fins. rewrite qmax_l by apply Qcle_refl. repeat split. apply f_equal. ring.
    - destruct (wrap_box _ _ _ _ _ N1 HB H0 D0) as (bi & gi & -> & Wi & Hi & Di). exists bi, gi, hr, dr. do 4 (split; [first [assumption|reflexivity]|]).
      intros. eapply wrap_draws. exact HB. }
  destruct X as (bi & gi & h & d & -> & Wi & Hi & Di & DI).
  unfold natural_v, list_of in N2. cbn [vpack vfold vpack_dims dims0 d_d d_h d_w] in N2. rewrite Wi, Hi, Di, finf_fin in N2.
  cbn [d_d d_h d_w] in N2. change (fltb exact (fpinf exact) (Fin d)) with false in N2. cbv iota in N2.
  rewrite f0_exact, fmax_fin in N2. repeat rewrite fadd_fin in N2. inversion N2 as [E]. clear N2. cbn [set_shift].
  do 2 eexists. split; [reflexivity|]. cbn [b_width]. split; [reflexivity|].
  intros ox oy x v. rewrite draws_unfold. cbn [each]. rewrite app_nil_r. cbn [vdraw is_vlist]. rewrite draws_box_width.
  change (vpos ?g ?a []) with a. cbn [b_height t_height]. rewrite Hi. fins. rewrite DI. f_equal; apply f_equal; ring.
Qed.

Lemma frat_half' a : fmul exact a (frat 1 2) = xmul a (Fin half). Proof. reflexivity. Qed.
Lemma frat_35 : @frat exact 3 5 = Fin (Q2Qc (3 # 5)). Proof. unfold frat. cbn. apply f_equal, Qc_is_canon. reflexivity. Qed.

Lemma padded_box body w h d t p : natural_h (A:=exact) [hbox (Fin (t + t)); body; hbox (Fin (t + t))] p -> hbox_of body w h d ->
  (0 <= h)%Qc -> (0 <= d)%Qc ->
  exists b gs, p = TL KHList b (Fin 0) gs [hbox (Fin (t + t)); body; hbox (Fin (t + t))] /\
    b_width b = Fin (w + (t + t + t + t)) /\ b_height b = Fin h /\ b_depth b = Fin d /\
    forall ox oy bx (x v : Qc), draws ox oy false bx p (Fin x) (Fin v) = draws ox oy false (t_box body) body (Fin (x + (t + t))) (Fin v).
Proof.
  intros N (b0 & gs0 & l & -> & E1 & E2 & E3) H1 H2. unfold natural_h in N. rewrite N. cbn [hpack list_of]. do 2 eexists. split; [reflexivity|].
  cbn [b_width b_height b_depth fold_left hpack_dims hbox new_box d_h d_d d_w dims0]. rewrite E1, E2, E3, f0_exact, !finf_fin. cbn [orb d_h d_d d_w].
  fins. rewrite !fmax_fin. rewrite (qmax_l 0 0) by apply Qcle_refl. split; [|split; [|split]]; try apply f_equal.
  - ring.
  - rewrite (qmax_r 0) by qc. rewrite qmax_l by qc. ring.
  - rewrite (qmax_r 0) by qc. rewrite qmax_l by qc. ring.
  - intros ox oy bx x v. rewrite draws_unfold. cbn [each app hdraw hbox is_vlist t_box]. rewrite app_nil_r.
    unfold hpos. cbn [after right_of hbox t_width new_box b_width]. fins. f_equal. apply f_equal. ring.
Qed.

Lemma radicals_drawn root body check wr w h d bc gc lc wc sc hc t e tr :
  radical (A:=exact) root body check (Fin t) (Fin t) (Fin e) tr ->
  indexbox root wr -> hbox_of body w h d -> (0 <= h)%Qc -> (0 <= d)%Qc -> (0 <= t)%Qc ->
  check = TL KHList bc (Fin sc) gc lc -> b_width bc = Fin wc -> above check = Fin hc ->
  (exists dc, beneath check = Fin dc /\ (d <= dc)%Qc) ->
  (0 <= hc + e - t - h)%Qc -> (this (hc + e - t - h)%Qc <= billion)%Q ->
  radical_drawn root body check wr w wc sc hc t e tr.
Proof.
  intros (padded & rhs & inner & vl & N1 & (r0 & N2 & V) & N3 & N4 & N5) IB HB H0 D0 T0 EC WC HC (dc & DC & LD) P0 PB.
  assert (T2 : fmul exact (fofZ exact 2) (Fin t) = Fin (t + t)) by (fins; apply f_equal; ring). rewrite T2 in N1.
  destruct (padded_box _ _ _ _ _ _ N1 HB H0 D0) as (bp & gp & EP & Wp & Hp & Dp & DP).
  rewrite HC, DC, fadd_fin in V. rewrite !halves in N2. rewrite EP in N2.
  set (H := (hc + e)%Qc) in *. assert (HD : (H - (t + h) = hc + e - t - h)%Qc) by (unfold H; ring).
  destruct (under_packed _ h d t H dc bp gp _ Wp Hp Dp LD r0 rhs N2 V) as (b & gs & ER & BW & BH & BD & _).
  destruct (under_drawn _ h d t H dc bp gp _ Wp Hp Dp T0 LD r0 rhs N2 V) as (adj & AJ & DR); [rewrite HD; assumption..|].
  assert (SV : fmul exact (fopp exact (above check)) (frat 3 5) = Fin (- (hc * Q2Qc (3 # 5)))).
  { rewrite HC, frat_35. fins. apply f_equal. ring. }
  rewrite SV in N5. destruct (root_drawn _ _ _ _ (- (hc * Q2Qc (3 # 5))) IB N3 N4) as (bv & gv & EV & WV & DV).
  assert (KW : fmul exact (fopp exact (t_width check)) (frat 1 2) = Fin (- (wc * half))).
  { rewrite EC. cbn [t_width]. rewrite WC, frat_half. fins. apply f_equal. ring. }
  rewrite KW in N5.
  exists adj. split; [exact AJ|]. intros ox oy x v left. unfold natural_h in N5. rewrite N5. cbn [hpack list_of].
  match goal with |- draws _ _ _ ?bb (TL _ ?b1 _ ?g _) _ _ = _ => generalize bb as B1; intros B1; generalize g as g1; intros g1; generalize b1 as b2; intros b2 end.
  rewrite draws_unfold. cbn [each]. rewrite app_nil_r. cbn [app].
  rewrite (hdraw_v _ _ _ _ _ _ _ _ _ _ _ _ EV), (hdraw_h _ _ _ _ _ _ _ _ _ _ _ _ EC), (hdraw_v _ _ _ _ _ _ _ _ _ _ _ _ ER).
  unfold hdraw, new_kern. cbn [app].
  assert (TV : t_width (set_shift (Fin (- (hc * Q2Qc (3 # 5)))) vl) = Fin (qmax 0 wr)) by (rewrite EV; exact WV).
  assert (RV : forall pre q, right_of g1 pre (set_shift (Fin (- (hc * Q2Qc (3 # 5)))) vl) (Fin q) = Fin (q + qmax 0 wr)).
  { intros. unfold right_of. rewrite EV. rewrite EV in TV. rewrite TV. apply fadd_fin. }
  assert (RC : forall pre q, right_of g1 pre check (Fin q) = Fin (q + wc)).
  { intros. rewrite EC. unfold right_of. cbn [t_width]. rewrite WC. apply fadd_fin. }
  assert (RK : forall pre q k, right_of (A:=exact) g1 pre (TKern 0 (Fin k)) (Fin q) = Fin (q + k)) by reflexivity.
  unfold hpos. cbn [after]. rewrite RV, RK, RC. fins. rewrite DV.
  assert (EL : (x + qmax 0 wr + - (wc * half) = left)%Qc) by (unfold left, half; ring). rewrite EL.
  rewrite DR by assumption. rewrite <- EP.
  rewrite DP. replace (t_box check) with bc by (now rewrite EC). apply f_equal2; [|apply f_equal2; [|apply f_equal2]].
  - f_equal; apply f_equal; ring.
  - reflexivity.
  - f_equal; apply f_equal2; [apply f_equal; unfold H; ring|reflexivity].
  - f_equal; apply f_equal; ring.
Qed.
