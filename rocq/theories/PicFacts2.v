(** Pictures of fractions, overlines and radicals. *)
From Coq Require Import ZArith String Ascii List Bool Lia QArith Qround Qcanon Lqa.
From Verif Require Import Utf8 Token Ast SetTable Parser Symbols PropSymbols TreeSpec Arith Exact OrderLaws Box Ship ShipSpec ShipFacts ShipFacts2
  PackSpec PackFacts ExactFacts PropPack PropShip Mtex MtexTable MtexSpec FracSpec MtexFacts MtexFacts2 MtexFacts4 MtexFacts5 PropMtex ReadSpec ReadFacts
  RadFacts GeomSpec GeomFacts GeomFacts2 SizeSpec SizeFacts PicSpec PicFacts.
Import ListNotations.
Local Open Scope string_scope.
Local Open Scope list_scope.
Local Open Scope Z_scope.

(** ** Glue *)
Definition sgs (k : Qc) (g : @Box.gset exact) : @Box.gset exact := mk_gset (gs_set g * Fin k)%F (gs_sign g) (gs_order g) (gs_ratio g).
Definition sbx (k : Qc) (n : Z) (b : @Box.box exact) : @Box.box exact :=
  mk_box (b_size b + n) (b_width b * Fin k)%F (b_height b * Fin k)%F (b_depth b * Fin k)%F.
Lemma scaled_tl k n kk b sh gs l : scaled (Fin k) n (TL kk b (Fin sh) gs l) = TL kk (sbx k n b) (Fin (sh * k)) (sgs k gs) (map (scaled (Fin k) n) l).
Proof. reflexivity. Qed.
Lemma snap_zero k : snap (k * 0) = 0%Qc. Proof. replace (k * 0)%Qc with 0%Qc by ring. apply snap_0. Qed.

Lemma centred_set (W w : Qc) x t : centred (A:=exact) (Fin W) x t -> t_width x = Fin w -> (forall g, x <> TGlue g) -> (w <= W)%Qc ->
  exists b gs, t = TL KHList b (Fin 0) gs [glue_ss; x; glue_ss] /\ b_size b = 0 /\
  forall k n, fofZ exact (glue_upto (sgs k gs) [scaled (Fin k) n glue_ss]) = Fin (snap (k * ((W - w) * Q2Qc (1 # 2)))).
Proof.
  intros (b & gs & -> & BS) Ew NG LE. set (l := [glue_ss; x; glue_ss]).
  pose proof (C26_hpack_glue exact (Fin W) false b f0 gs l) as GS. cbv zeta in GS.
  set (t := hpack (A:=exact) (Fin W) false (TL KHList b f0 gs l)) in *.
  assert (TW : t_width t = Fin W) by reflexivity. rewrite TW in GS.
  assert (SW : fsum (map t_width l) = Fin w).
  { subst l. cbn [map]. rewrite !fsum_cons, fsum_nil. cbn [t_width glue_ss g_width]. rewrite f0_exact, Ew.
    now rewrite xadd_0_l, !xadd_0_r. }
  rewrite SW in GS. set (d := (W - w)%Qc) in *. change (fsub exact (Fin W) (Fin w)) with (Fin d) in GS.
  assert (D0 : (0 <= d)%Qc) by (unfold d; qc).
  assert (TS : forall o, (o <= 3)%nat -> tot_stretch l o = if Nat.eqb o 1 then Fin (1 + 1) else Fin 0).
  { intros o Ho. unfold tot_stretch, l. cbn [flat_map glue_ss g_stretch_order g_stretch].
    assert (EX : match x with TGlue g => if Nat.eqb (g_stretch_order g) o then [g_stretch g] else [] | _ => [] end = []).
    { destruct x; try reflexivity. now destruct (NG g). }
    rewrite EX. destruct o as [|[|o]]; reflexivity. }
  eexists _, (t_glue t). split; [reflexivity|]. split; [exact BS|]. set (g := t_glue t) in *. clearbody g. intros k n.
  inversion GS as [g0 Z S0 E0|g0 NZ LT S0 HI ST E0|g0 NZ LT S0 HI ST E0|g0 NZ S0 RG E0]; subst g0.
  - rewrite natural_upto by exact S0. apply zero_iff in Z. apply fin_inj in Z. rewrite Z. change (fofZ exact 0) with (Fin 0). apply f_equal.
    replace (k * (0 * Q2Qc (1 # 2)))%Qc with 0%Qc by ring. symmetry. apply snap_0.
  - assert (O1 : gs_order g = 1%nat).
    { destruct HI as (Ho & Hz & _). rewrite TS in Hz by assumption.
      destruct (Nat.eqb_spec (gs_order g) 1) as [->|]; [reflexivity|]. exfalso. apply Hz. reflexivity. }
    rewrite O1, TS in ST by lia. cbn [Nat.eqb] in ST.
    assert (EG : gs_set g = Fin (d * Q2Qc (1 # 2))).
    { rewrite ST. cbn [fdiv exact xdiv]. change (Fin (d / (1 + 1)) = Fin (d * Q2Qc (1 # 2))). apply f_equal. reflexivity. }
    unfold glue_upto, elastics. cbn [flat_map elastic scaled glue_ss sgs gs_sign gs_order gs_set]. rewrite S0. cbn [Z.eqb Pos.eqb].
    cbn [g_stretch_order g_stretch]. rewrite O1. cbn [Nat.eqb app].
    assert (FS : fsum [@f1 exact] = Fin 1) by reflexivity. rewrite FS, EG, !fmul_fin.
    replace (d * Q2Qc (1 # 2) * k * 1)%Qc with (k * (d * Q2Qc (1 # 2)))%Qc by ring. apply snap_exact.
  - exfalso. rewrite f0_exact, fltb_exact in LT. apply qltb_false in LT. apply NZ, zero_iff. apply f_equal. now apply Qcle_antisym.
  - exfalso. destruct (fltb exact f0 (Fin d)) eqn:LT.
    + specialize (RG 1%nat). rewrite TS in RG by lia. cbn [Nat.eqb] in RG. apply zero_iff in RG; [|lia]. discriminate RG.
    + rewrite f0_exact, fltb_exact in LT. apply qltb_false in LT. apply NZ, zero_iff. apply f_equal. now apply Qcle_antisym.
Qed.

Section Pic2.
Context {S : Type}.
Variable be : @backend exact S.
Variable parse_float : string -> option xq.
Variable M : measures.
Variables (size dpi : Qc).
Notation tnode := (@Box.tnode exact).
Notation face := (face size).
Notation stt typ := (at_font dpi (face typ)).
Hypothesis MB : measured_by M size dpi be parse_float.
Notation rep := (rep M dpi).
Notation ink := (ink dpi).
Notation child := (child dpi).
Notation rep2 := (rep2 M dpi).
Notation looks := (looks dpi).
Notation hb := (hb dpi).
Notation vlooks := (vlooks dpi).

Lemma glue_young : young glue_ss /\ young glue_fill.
Proof. split; (split; [exact I|repeat constructor; cbn; lia]). Qed.

Lemma centred_hb W e f x t : hb x (e, f) -> centred (A:=exact) (Fin W) x t -> (x_w e <= W)%Qc ->
  hb t (mk_ext W (x_h e) (x_d e), Slide ((W - x_w e) * Q2Qc (1 # 2)) f).
Proof.
  intros HB C LE. pose proof (hb_rep2 M dpi _ _ HB) as [_ CH]. pose proof HB as [HX L]. cbn [fst snd] in HX, L, CH.
  pose proof HX as (bx & gx & lx & EX & BS & E1 & E2 & E3 & P1 & P2).
  destruct (centred_dims _ _ _ _ _ _ C (hx_hbox _ _ HX) P1 P2) as (b & gs & -> & A1 & A2 & A3).
  destruct (centred_set W (x_w e) x _ C) as (b' & gs' & ET & BS' & SN); [rewrite EX; exact E1|rewrite EX; discriminate|exact LE|].
  assert (b' = b) by congruence. assert (gs' = gs) by congruence. subst b' gs'. clear ET. split.
  - exists b, gs, [glue_ss; x; glue_ss]. cbn [fst x_w x_h x_d]. split; [reflexivity|]. split; [lia|]. auto.
  - cbn [snd]. split.
    + apply young_list. split; [lia|]. constructor; [apply glue_young|]. constructor; [apply L|]. constructor; [apply glue_young|constructor].
    + intros k n ox oy bx0 x0 v K. rewrite scaled_tl, draws_unfold. cbn [map]. cbn [each app]. 
      assert (HP : hpos (sgs k gs) (Fin x0) [scaled (Fin k) n glue_ss] = Fin (x0 + snap (k * ((W - x_w e) * Q2Qc (1 # 2))))).
      { change (hpos (sgs k gs) (Fin x0) [scaled (Fin k) n glue_ss]) with (fadd exact (Fin x0) (fadd exact (fsub exact (fmul exact f0 (Fin k))
          (fofZ exact (glue_upto (sgs k gs) []))) (fofZ exact (glue_upto (sgs k gs) [scaled (Fin k) n glue_ss])))).
        rewrite SN. change (fofZ exact (glue_upto (sgs k gs) [])) with (Fin 0). fins. apply f_equal. ring. }
      destruct CH as (_ & _ & CH). rewrite (CH k n ox oy bx0 _ _ v _ _ K HP). cbn [scaled glue_ss hdraw app]. rewrite app_nil_r.
      cbn [PicSpec.ink]. f_equal. ring.
Qed.

(** ** Vertical lists *)
Lemma below_space2 gs pre h q k n : pos k -> (0 <= h)%Qc ->
  below (A:=exact) gs pre (scaled (Fin k) n (vbox (Fin 0) (Fin (h + h)))) (Fin q) = Fin (q + k * (h + h)).
Proof.
  intros K Hh. unfold below, vbox. cbn [scaled]. unfold vvisible. cbn [t_height t_depth new_box b_height b_depth b_size b_width]. fins. rewrite !fltb_fin.
  assert (E : qltb 0 (0 * k + (h + h) * k) = qltb 0 ((h + h) * k)) by (f_equal; ring). rewrite E, andb_diag.
  destruct (qltb 0 ((h + h) * k)) eqn:Z; apply f_equal; [ring|]. apply qltb_false in Z.
  assert (Z' : (0 <= (h + h) * k)%Qc). { rewrite <- (Qcmult_0_l k). apply Qcmult_le_compat_r; [qc|now apply Qclt_le_weak]. }
  replace (k * (h + h))%Qc with ((h + h) * k)%Qc by ring. rewrite (Qcle_antisym _ _ Z Z'). ring.
Qed.
Lemma pos_mul k r : pos k -> qltb 0 (r * k) = qltb 0 r.
Proof.
  intros K. destruct (qltb 0 r) eqn:E.
  - apply qltb_iff in E. apply qltb_iff. rewrite <- (Qcmult_0_l k). now apply Qcmult_lt_compat_r.
  - apply qltb_false in E. apply qltb_false. rewrite <- (Qcmult_0_l k). apply Qcmult_le_compat_r; [assumption|now apply Qclt_le_weak].
Qed.
Definition srule (r : Qc) : tnode := new_rule (A:=exact) PInf (Fin (half * r)) (Fin (half * r)).
Lemma vis_rule2 r k n : pos k -> vvisible (scaled (Fin k) n (srule r)) = qltb 0 r.
Proof.
  intros K. unfold vvisible, srule, new_rule. cbn [scaled t_height t_depth new_box b_height b_depth b_size b_width]. fins. rewrite !fltb_fin.
  replace (half * r * k + half * r * k)%Qc with ((half * r + half * r) * k)%Qc by ring. rewrite qsum_half, !pos_mul by assumption.
  replace (half * r)%Qc with (r * half)%Qc by ring. rewrite pos_mul by reflexivity. apply andb_diag.
Qed.
Lemma below_rule2 gs pre r q k n : pos k -> (0 <= r)%Qc -> below gs pre (scaled (Fin k) n (srule r)) (Fin q) = Fin (q + k * r).
Proof.
  intros K Hr. pose proof (vis_rule2 r k n K) as V. unfold below, srule, new_rule in *. cbn [scaled] in *. rewrite V.
  cbn [t_height t_depth new_box b_height b_depth b_size b_width]. fins. destruct (qltb 0 r) eqn:E; apply f_equal.
  - replace (k * r)%Qc with (k * (half * r + half * r))%Qc by now rewrite qsum_half. ring.
  - apply qltb_false in E. rewrite (Qcle_antisym _ _ E Hr). ring.
Qed.
Lemma rule_ink gs x v ox oy bx r k n pre top W : pos k -> vpos gs (fsub exact (Fin v) (b_height bx)) pre = Fin top -> b_width bx = Fin (W * k) ->
  vdraw (A:=exact) (Fin ox) (Fin oy) bx gs (Fin x) (Fin v) pre (scaled (Fin k) n (srule r)) = ink k (x + ox) (top + oy) (Move 0 r (Stroke W r)).
Proof.
  intros K T WE. pose proof (vis_rule2 r k n K) as V. unfold vdraw, srule, new_rule in *. cbn [scaled] in *. rewrite V, T.
  cbn [PicSpec.ink]. destruct (qltb 0 r); [|reflexivity]. unfold rect, run. cbn [t_height t_depth new_box b_height b_depth b_size b_width].
  assert (PI : fmul exact PInf (Fin k) = PInf). { change (xmul PInf (Fin k) = PInf). cbn [xmul]. now rewrite xmul_inf_pos. }
  rewrite PI. change (finf exact PInf) with true. cbv iota. rewrite WE. fins.
  replace (half * r * k + half * r * k)%Qc with (k * r)%Qc by (rewrite <- (qsum_half r) at 1; ring).
  do 2 f_equal; apply f_equal; ring.
Qed.
Lemma natural_v_box l t : natural_v (A:=exact) l t -> exists b gs, t = TL KVList b (Fin 0) gs l /\ b_size b = 0.
Proof.
  unfold natural_v, list_of. intros N. cbn [vpack] in N. destruct (vfold l dims0) as [d|]; [|discriminate N].
  match type of N with LOk ?x = LOk _ => assert (N' : t = x) by (inversion N; reflexivity) end. subst t. rewrite f0_exact. do 2 eexists. split; reflexivity.
Qed.
(** A horizontal list in a vertical one. *)
Lemma sub_ink gs x v ox oy bx t e f k n pre top : pos k -> hb t (e, f) -> vpos gs (fsub exact (Fin v) (b_height bx)) pre = Fin top ->
  vdraw (A:=exact) (Fin ox) (Fin oy) bx gs (Fin x) (Fin v) pre (scaled (Fin k) n t) = ink k (x + ox) (top + oy) (Move 0 (x_h e) f).
Proof.
  intros K (HX & _ & L) T. pose proof HX as (b & g & l & -> & _ & E1 & E2 & E3 & _). cbn [fst snd] in *. rewrite scaled_tl in *. unfold vdraw. rewrite T.
  cbn [is_vlist t_height sbx b_height]. rewrite E2. 
  specialize (L k n ox oy (box_width (b_width bx) (sbx k n b)) x (top + x_h e * k)%Qc K). rewrite scaled_tl in L.
  change (fadd exact (Fin x) (Fin (0 * k))) with (Fin (x + 0 * k)). replace (x + 0 * k)%Qc with x by ring.
  change (fadd exact (Fin top) (fmul exact (Fin (x_h e)) (Fin k))) with (Fin (top + x_h e * k)). rewrite L.
  cbn [PicSpec.ink]. f_equal; ring.
Qed.
Lemma below_h gs pre t e k n q : hx t e -> below (A:=exact) gs pre (scaled (Fin k) n t) (Fin q) = Fin (q + k * (x_h e + x_d e)).
Proof.
  intros (b & g & l & -> & _ & E1 & E2 & E3 & _). rewrite scaled_tl. unfold below.
  destruct (map _ l); cbn [t_height t_depth sbx b_height b_depth]; rewrite E2, E3; fins; apply f_equal; ring.
Qed.
Lemma vpos_snoc gs top pre (t : tnode) : vpos (A:=exact) gs top (pre ++ [t]) = below gs pre t (vpos gs top pre).
Proof.
  unfold vpos. assert (G : forall r p0 q, after (below gs) q p0 (r ++ [t]) = below gs (p0 ++ r) t (after (below gs) q p0 r)).
  { induction r as [|y r IH]; intros p0 q; cbn [after app]; [now rewrite app_nil_r|]. rewrite IH, <- app_assoc. reflexivity. }
  apply G.
Qed.

(** ** Fractions *)
Lemma stack_looks W hn dn hd dd fn fd h r cn cd st : (0 <= h)%Qc -> (0 <= r)%Qc ->
  hb cn (mk_ext W hn dn, fn) -> hb cd (mk_ext W hd dd, fd) ->
  natural_v (A:=exact) [cn; vbox f0 (fmul exact (Fin h) (fofZ exact 2));
     new_rule (fpinf exact) (fmul exact (frat 1 2) (Fin r)) (fmul exact (frat 1 2) (Fin r));
     vbox f0 (fmul exact (Fin h) (fofZ exact 2)); cd] st ->
  forall sh, vlooks (set_shift (Fin sh) st)
    (Move 0 (- (hn + dn + (h + h) + r + (h + h) + hd))
      (Join (Move 0 hn fn) (Join (Move 0 (hn + dn + (h + h) + r) (Stroke (qmax 0 W) r)) (Move 0 (hn + dn + (h + h) + r + (h + h) + hd) fd)))).
Proof.
  intros H0 R0 HBn HBd NV sh. pose proof (natural_v_box _ _ NV) as (b0 & gs0 & EST & BS).
  pose proof HBn as [HXn (Yn & _)]. pose proof HBd as [HXd (Yd & _)]. cbn [fst snd] in *.
  pose proof HXn as (bn & gn & ln & En & _ & A1 & A2 & A3 & _). pose proof HXd as (bd & gd & ld & Ed & _ & B1 & B2 & B3 & _).
  cbn [x_w x_h x_d] in *. rewrite En, Ed in NV.
  destruct (stack_box _ _ _ _ _ _ _ _ _ _ _ _ _ _ A1 A2 A3 B1 B2 B3 NV) as (b & gs & ES & D1 & D2 & D3). rewrite <- En, <- Ed in ES.
  assert (b0 = b) by congruence. subst b0. clear EST NV. subst st. cbn [set_shift].
  set (sp := vbox (A:=exact) (Fin 0) (Fin (h + h))). change (new_rule PInf (Fin (half * r)) (Fin (half * r))) with (srule r).
  split.
  - apply young_list. split; [lia|].
    assert (YS : young sp) by (split; [exact I|repeat constructor; cbn; lia]).
    assert (YR : young (srule r)) by (split; [exact I|repeat constructor; cbn; lia]).
    repeat (constructor; [assumption|]). constructor.
  - intros k n ox oy x v K. rewrite scaled_tl, draws_unfold. cbn [map t_box]. cbn [each app].
    set (bx := sbx k n b). assert (BH : b_height bx = Fin ((hn + dn + (h + h) + r + (h + h) + hd) * k)) by (unfold bx, sbx; cbn [b_height]; now rewrite D2).
    assert (BW : b_width bx = Fin (qmax 0 W * k)) by (unfold bx, sbx; cbn [b_width]; now rewrite D1).
    set (g := sgs k gs). set (T := (v - (hn + dn + (h + h) + r + (h + h) + hd) * k)%Qc).
    assert (V0 : vpos g (fsub exact (Fin v) (b_height bx)) [] = Fin T) by (rewrite BH; reflexivity).
    assert (V1 : vpos g (fsub exact (Fin v) (b_height bx)) [scaled (Fin k) n cn] = Fin (T + k * (hn + dn))).
    { change [scaled (Fin k) n cn] with ([] ++ [scaled (Fin k) n cn]). rewrite vpos_snoc, V0. rewrite (below_h _ _ _ _ _ _ _ HXn). reflexivity. }
    assert (V2 : vpos g (fsub exact (Fin v) (b_height bx)) [scaled (Fin k) n cn; scaled (Fin k) n sp] = Fin (T + k * (hn + dn) + k * (h + h))).
    { change [scaled (Fin k) n cn; scaled (Fin k) n sp] with ([scaled (Fin k) n cn] ++ [scaled (Fin k) n sp]). rewrite vpos_snoc, V1. now apply below_space2. }
    assert (V3 : vpos g (fsub exact (Fin v) (b_height bx)) [scaled (Fin k) n cn; scaled (Fin k) n sp; scaled (Fin k) n (srule r)] =
      Fin (T + k * (hn + dn) + k * (h + h) + k * r)).
    { change [scaled (Fin k) n cn; scaled (Fin k) n sp; scaled (Fin k) n (srule r)] with ([scaled (Fin k) n cn; scaled (Fin k) n sp] ++ [scaled (Fin k) n (srule r)]).
      rewrite vpos_snoc, V2. now apply below_rule2. }
    assert (V4 : vpos g (fsub exact (Fin v) (b_height bx)) [scaled (Fin k) n cn; scaled (Fin k) n sp; scaled (Fin k) n (srule r); scaled (Fin k) n sp] =
      Fin (T + k * (hn + dn) + k * (h + h) + k * r + k * (h + h))).
    { change [scaled (Fin k) n cn; scaled (Fin k) n sp; scaled (Fin k) n (srule r); scaled (Fin k) n sp] with
        ([scaled (Fin k) n cn; scaled (Fin k) n sp; scaled (Fin k) n (srule r)] ++ [scaled (Fin k) n sp]).
      rewrite vpos_snoc, V3. now apply below_space2. }
    rewrite (sub_ink g x v ox oy bx cn _ _ k n _ _ K HBn V0).
    rewrite (rule_ink g x v ox oy bx r k n _ _ (qmax 0 W) K V2 BW).
    rewrite (sub_ink g x v ox oy bx cd _ _ k n _ _ K HBd V4).
    assert (NS : forall pre, vdraw (Fin ox) (Fin oy) bx g (Fin x) (Fin v) pre (scaled (Fin k) n sp) = []) by reflexivity.
    rewrite !NS. cbn [app]. rewrite app_nil_r. cbn [PicSpec.ink x_h]. unfold T.
    apply f_equal2; [f_equal; ring|]. apply f_equal2; [|f_equal; ring].
    destruct (qltb 0 r); [|reflexivity]. do 2 f_equal; apply f_equal; ring.
Qed.

Lemma stacked_hb num den n d th r ax t (s : S) : hb num n -> hb den d -> (0 <= th)%Qc -> (0 <= r)%Qc ->
  stacked (A:=exact) num den (Fin th) (Fin r) (Fin ax) t -> hb t (fraction M th r ax (fst n) (fst d), frac_figure th r ax n d).
Proof.
  intros Hn Hd T0 R0 ST. destruct n as [en fn], d as [ed fd]. pose proof Hn as [HXn _]. pose proof Hd as [HXd _]. cbn [fst snd] in *.
  pose proof (stacked_row be parse_float M size dpi MB num den en ed th r ax t s HXn HXd ST) as HX. split; [exact HX|]. cbn [snd].
  destruct ST as (cn & cd & stk & C1 & C2 & NV & NH).
  assert (EW : fmax exact (t_width num) (t_width den) = Fin (qmax (x_w en) (x_w ed))).
  { destruct HXn as (? & ? & ? & -> & _ & E1 & _), HXd as (? & ? & ? & -> & _ & E2 & _). cbn [t_width]. rewrite E1, E2. apply fmax_fin. }
  rewrite EW in C1, C2. set (W := qmax (x_w en) (x_w ed)) in *.
  apply (centred_hb _ _ _ _ _ Hn) in C1; [|apply qmax_ge]. apply (centred_hb _ _ _ _ _ Hd) in C2; [|apply qmax_ge].
  assert (TH : t_height cd = Fin (x_h ed)).
  { destruct C2 as [(? & ? & ? & -> & _ & _ & E2 & _) _]. exact E2. }
  rewrite TH in NH.
  replace (fsub exact (Fin (x_h ed)) (fsub exact (Fin ax) (fmul exact (fofZ exact 3) (Fin th)))) with (Fin (x_h ed - ax + (th + th + th))) in NH
    by (fins; apply f_equal; ring).
  replace (fmul exact (fofZ exact 2) (Fin th)) with (Fin (th + th)) in NH by (fins; apply f_equal; ring).
  pose proof (stack_looks _ _ _ _ _ _ _ _ _ _ _ _ T0 R0 C1 C2 NV (x_h ed - ax + (th + th + th))%Qc) as VL.
  destruct (natural_v_box _ _ NV) as (b & gs & -> & _). cbn [set_shift] in *.
  pose proof (vlooks_child dpi _ _ _ _ _ VL) as CH.
  set (stk := TL KVList b (Fin (x_h ed - ax + (th + th + th))) gs _) in *. clearbody stk. clear NV.
  unfold natural_h in NH. rewrite NH in *. cbn [hpack list_of] in *. split.
  - apply young_list. cbn [b_size new_box]. split; [lia|]. constructor; [apply VL|]. constructor; [|constructor].
    split; [exact I|repeat constructor; cbn; lia].
  - intros k m ox oy bx x v K. rewrite f0_exact, scaled_tl, draws_unfold. cbn [map each app].
    destruct CH as (_ & _ & CH). match goal with |- context [hdraw _ _ _ ?g _ _] => set (gg := g) end.
    rewrite (CH k m ox oy bx gg (Fin x) v [] x K eq_refl). cbn [scaled hbox hdraw app]. rewrite app_nil_r.
    unfold frac_figure. cbn [fst snd]. fold W. cbn [PicSpec.ink]. apply f_equal2; [f_equal; ring|]. apply f_equal2; [|f_equal; ring].
    destruct (qltb 0 r); [|reflexivity]. do 2 f_equal; apply f_equal; ring.
Qed.

Lemma genfrac_hb ld rd r sty num den n d typ s t s' :
  hb num n -> hb den d -> (0 <= r)%Qc -> (ld = "" /\ rd = "") \/ (ld = "(" /\ rd = ")" /\ r = 0%Qc) ->
  genfrac be ld rd (Fin r) sty num den (stt typ) s = LOk (t, s') ->
  let sz b := match sty with DisplayStyle => b | TextStyle => small b end in
  let th := line M (face typ) in
  hb t (if String.eqb ld "" then (fraction M th r (axis M size) (fst (sz n)) (fst (sz d)), frac_figure th r (axis M size) (sz n) (sz d))
        else (let f := fraction M th 0 (axis M size) (fst (sz n)) (fst (sz d)) in
              box_of M [delim M "(" (face typ) (x_h f) (x_d f); frac_shape M th 0 (axis M size) (sz n) (sz d); delim M ")" (face typ) (x_h f) (x_d f)])).
Proof.
  intros Hn Hd R0 LR E sz th.
  assert (RN : fltb exact (Fin r) f0 = false) by (rewrite f0_exact, fltb_exact; now apply qltb_ge).
  apply (genfrac_ok be eq_refl) in E as (th' & s1 & num' & s2 & den' & s3 & me & bx & s4 & G1 & G2 & G3 & G4 & ST & E); [|exact RN].
  pose proof (style_hb be dpi _ _ _ _ _ _ Hn G2) as Hn'. pose proof (style_hb be dpi _ _ _ _ _ _ Hd G3) as Hd'.
  pose proof MB as (MM & _ & ML & _). apply ML in G1 as [-> TH]; [|reflexivity]. cbn [st_font st_dpi at_font f_name f_size] in *.
  destruct (MM "=" (face "it") size _ _ _ _ eq_refl G4) as (_ & _ & _ & _ & (tp & bt & E1 & E2 & E3)).
  assert (MID : middle me = Fin (axis M size)).
  { unfold middle. rewrite E1, E2. fins. change (mk_font (f_name (face typ)) "it" (f_size (face typ))) with (face "it") in E3. unfold axis. rewrite <- E3. reflexivity. }
  rewrite MID in ST. change (st_font (stt typ)) with (face typ) in *.
  pose proof (stacked_hb _ _ _ _ _ _ _ _ s Hn' Hd' TH R0 ST) as HX.
  fold th in HX. fold (sz n) in HX. fold (sz d) in HX.
  destruct LR as [[-> ->]|(-> & -> & ->)].
  - cbn [String.eqb negb orb] in E. destruct E as [-> _]. exact HX.
  - cbn [String.eqb negb orb] in E. change (if negb (String.eqb "(" "") || negb (String.eqb ")" "") then _ else _) with
      (auto_sized_delimiter be "(" bx ")" (stt typ) s4 = LOk (t, s')) in E.
    apply (delim_ok be eq_refl) in E; [|destruct HX as [(b & gs & l & -> & _) _]; exact I].
    destruct E as (l & s5 & rr & bl & sl & gl & cl & kl & br & sr & gr & cr & kr & L1 & R1 & NH & EL & ER & _).
    pose proof HX as [(b & gs & l0 & EB & _ & _ & Hh & Hdp & P1 & P2) _]. cbn [String.eqb fst] in *.
    change (String.eqb "(" "") with false. cbv iota zeta.
    set (bb := fraction M th 0 (axis M size) (fst (sz n)) (fst (sz d))) in *.
    assert (EH : fmax exact f0 (t_height bx) = Fin (x_h bb)).
    { rewrite EB. cbn [t_height]. rewrite Hh, f0_exact, fmax_fin, qmax_r by exact P1. reflexivity. }
    assert (EDp : fmax exact f0 (t_depth bx) = Fin (x_d bb)).
    { rewrite EB. cbn [t_depth]. rewrite Hdp, f0_exact, fmax_fin, qmax_r by exact P2. reflexivity. }
    rewrite EH, EDp in L1, R1.
    apply (delim2 be parse_float M size dpi MB) in L1; [|cbn; auto]. apply (delim2 be parse_float M size dpi MB) in R1; [|cbn; auto].
    refine (natural_hb be parse_float M size dpi MB _ _ _ s _ _ NH).
    + constructor; [exact L1|]. constructor; [exact (hb_rep2 M dpi _ _ HX)|]. constructor; [exact R1|constructor].
    + intros x [<-|[<-|[<-|[]]]]; [now rewrite EL|rewrite EB; exact I|now rewrite ER].
Qed.

(** ** Bars *)
Lemma bar_set inner e r H lim t : hx inner e -> under_bar (A:=exact) inner (Fin r) (Fin H) (Fin lim) t -> (x_d e <= lim)%Qc ->
  exists b gs, t = TL KVList b (Fin 0) gs [srule r; glue_fill; inner] /\ b_size b = 0 /\ b_width b = Fin (qmax 0 (x_w e)) /\ b_height b = Fin H /\
  forall k n, glue_upto (sgs k gs) [scaled (Fin k) n (srule r)] = 0 /\
    fofZ exact (glue_upto (sgs k gs) [scaled (Fin k) n (srule r); scaled (Fin k) n glue_fill]) = Fin (snap (k * qmax 0 (H - (r + x_h e)))).
Proof.
  intros (bi & gi & li & -> & _ & W & Hh & Hd & _) (r0 & N & V) DL.
  destruct (under_fold (x_w e) (x_h e) (x_d e) r bi gi li W Hh Hd) as (s1 & s2 & VF).
  change (new_rule PInf (Fin (half * r)) (Fin (half * r))) with (srule r) in VF.
  set (l := [srule r; glue_fill; TL KHList bi (Fin 0) gi li]) in *.
  assert (N0 : natural_v (A:=exact) l r0).
  { change (fpinf exact) with PInf in N. replace (fmul exact (frat 1 2) (Fin r)) with (Fin (half * r)) in N by (fins; reflexivity). exact N. }
  clear N. pose proof (natural_v_box _ _ N0) as (b0 & gs0 & -> & BS). clear N0.
  pose proof (C26_vpack_glue exact (Fin H) false (Fin lim) b0 (Fin 0) gs0 l t V) as GS. cbn [vpack] in V. rewrite VF in V. cbn [d_d d_h d_w] in V.
  rewrite fltb_fin, (proj2 (qltb_false lim (x_d e))) in V by assumption.
  match type of V with LOk ?x = LOk _ => assert (V' : t = x) by (inversion V; reflexivity) end. clear V. subst t.
  do 2 eexists. split; [reflexivity|]. cbn [b_size b_width b_height b_depth]. split; [exact BS|]. do 2 (split; [reflexivity|]).
  destruct GS as (x & NH & GS). cbn [t_height b_height t_glue] in GS. set (D := (H - (r + x_h e))%Qc).
  assert (EX : x = Fin (r + x_h e)).
  { destruct (NH (Fin 0) (new_box f0 f0 f0) f0 gset0) as (t1 & V1 & H1). cbn [vpack] in V1. rewrite VF in V1. cbn [d_d d_h d_w] in V1.
    rewrite fltb_fin, (proj2 (qltb_false lim (x_d e))) in V1 by assumption. injection V1 as <-. cbn [t_height b_height] in H1.
    change (fadd exact (Fin 0) ?a) with (xadd (Fin 0) a) in H1. rewrite !xadd_0_l in H1.
    rewrite <- H1. apply f_equal. ring. }
  subst x. change (fsub exact (Fin H) (Fin (r + x_h e))) with (Fin D) in GS.
  set (g := pack_glue _ _ _) in *. clearbody g. intros k n. split.
  { unfold glue_upto, elastics, srule, new_rule. cbn [scaled flat_map elastic app]. reflexivity. }
  assert (TS : forall o, (o <= 3)%nat -> tot_stretch l o = if Nat.eqb o 2 then Fin 1 else Fin 0).
  { intros o Ho. unfold tot_stretch, l, srule. cbn [flat_map new_rule glue_fill g_stretch_order g_stretch]. destruct o as [|[|[|o]]]; reflexivity. }
  assert (TK : forall o, (o <= 3)%nat -> zero (tot_shrink l o)).
  { intros o Ho. unfold tot_shrink, l, srule. cbn [flat_map new_rule glue_fill g_shrink_order g_shrink]. destruct o as [|[|[|o]]]; reflexivity. }
  inversion GS as [g0 Z S0 E0|g0 NZ LT S0 HI ST E0|g0 NZ LT S0 HI ST E0|g0 NZ S0 RG E0]; subst g0.
  - rewrite natural_upto by exact S0. apply zero_iff in Z. apply fin_inj in Z. rewrite Z. change (fofZ exact 0) with (Fin 0). apply f_equal.
    replace (qmax 0 0) with 0%Qc by reflexivity. symmetry. apply snap_zero.
  - destruct HI as (O3 & NZO & HI).
    assert (O2 : gs_order g = 2%nat).
    { destruct (Nat.eqb (gs_order g) 2) eqn:E; [now apply Nat.eqb_eq|]. exfalso. apply NZO. rewrite TS, E by assumption. now apply zero_iff. }
    rewrite O2, TS in ST by lia. cbn [Nat.eqb] in ST.
    assert (EG : gs_set g = Fin D).
    { rewrite ST. cbn [fdiv exact xdiv qeqb]. change (Fin (D / 1) = Fin D). apply f_equal. field. discriminate. }
    rewrite f0_exact, fltb_fin in LT. apply qltb_iff in LT.
    unfold glue_upto, elastics, srule, new_rule, glue_fill. cbn [scaled flat_map elastic app g_stretch_order g_stretch sgs gs_sign gs_order gs_set].
    rewrite S0, O2. cbn [Z.eqb Pos.eqb Nat.eqb app].
    assert (FS : fsum [@f1 exact] = Fin 1) by reflexivity. rewrite FS, EG, !fmul_fin.
    rewrite qmax_r by now apply Qclt_le_weak. replace (D * k * 1)%Qc with (k * D)%Qc by ring. apply snap_exact.
  - destruct HI as (O3 & NZO & _). destruct (NZO (TK _ O3)).
  - rewrite natural_upto by exact S0. change (fofZ exact 0) with (Fin 0). apply f_equal.
    destruct (fltb exact f0 (Fin D)) eqn:LT.
    + exfalso. specialize (RG 2%nat). rewrite TS in RG by lia. cbn [Nat.eqb] in RG. apply zero_iff in RG; [|lia]. discriminate RG.
    + rewrite f0_exact, fltb_fin in LT. apply qltb_false in LT. rewrite qmax_l by assumption. symmetry. apply snap_zero.
Qed.

Lemma bar_child inner e f r H lim t : hb inner (e, f) -> under_bar (A:=exact) inner (Fin r) (Fin H) (Fin lim) t -> (x_d e <= lim)%Qc -> (0 <= r)%Qc ->
  child t (Join (Move 0 (r - H) (Stroke (qmax 0 (x_w e)) r)) (Move 0 (r + x_h e - H) (Drop (qmax 0 (H - (r + x_h e))) f))).
Proof.
  intros HB UB DL R0. pose proof HB as [HX (Y & _)]. cbn [fst snd] in *.
  destruct (bar_set _ _ _ _ _ _ HX UB DL) as (b & gs & -> & BS & BW & BH & SN). set (D := qmax 0 (H - (r + x_h e))) in *.
  eapply child_eq; [apply vlooks_child; split|].
  - apply young_list. split; [lia|]. constructor; [split; [exact I|repeat constructor; cbn; lia]|]. constructor; [apply glue_young|]. constructor; [exact Y|constructor].
  - intros k n ox oy x v K. rewrite scaled_tl, draws_unfold. cbn [map t_box each app]. destruct (SN k n) as [S0 S1].
    set (bx := sbx k n b). assert (BH' : b_height bx = Fin (H * k)) by (unfold bx, sbx; cbn [b_height]; now rewrite BH).
    assert (BW' : b_width bx = Fin (qmax 0 (x_w e) * k)) by (unfold bx, sbx; cbn [b_width]; now rewrite BW).
    set (g := sgs k gs) in *.
    assert (V0 : vpos g (fsub exact (Fin v) (b_height bx)) [] = Fin (v - H * k)) by (rewrite BH'; reflexivity).
    assert (V1 : vpos g (fsub exact (Fin v) (b_height bx)) [scaled (Fin k) n (srule r)] = Fin (v - H * k + k * r)).
    { change [scaled (Fin k) n (srule r)] with ([] ++ [scaled (Fin k) n (srule r)]). rewrite vpos_snoc, V0. now apply below_rule2. }
    assert (V2 : vpos g (fsub exact (Fin v) (b_height bx)) [scaled (Fin k) n (srule r); scaled (Fin k) n glue_fill] = Fin (v - H * k + k * r + snap (k * D))).
    { change [scaled (Fin k) n (srule r); scaled (Fin k) n glue_fill] with ([scaled (Fin k) n (srule r)] ++ [scaled (Fin k) n glue_fill]). rewrite vpos_snoc, V1.
      change (below g [scaled (Fin k) n (srule r)] (scaled (Fin k) n glue_fill) (Fin (v - H * k + k * r))) with
        (fadd exact (Fin (v - H * k + k * r)) (fadd exact (fsub exact (fmul exact f0 (Fin k)) (fofZ exact (glue_upto g [scaled (Fin k) n (srule r)])))
          (fofZ exact (glue_upto g [scaled (Fin k) n (srule r); scaled (Fin k) n glue_fill])))).
      rewrite S0, S1. change (fofZ exact 0) with (Fin 0). fins. apply f_equal. ring. }
    rewrite (rule_ink g x v ox oy bx r k n _ _ (qmax 0 (x_w e)) K V0 BW').
    rewrite (sub_ink g x v ox oy bx inner _ _ k n _ _ K HB V2).
    assert (NG : forall pre, vdraw (Fin ox) (Fin oy) bx g (Fin x) (Fin v) pre (scaled (Fin k) n glue_fill) = []) by reflexivity.
    rewrite NG. cbn [app]. rewrite app_nil_r.
    instantiate (1 := Join (Move 0 (- H) (Move 0 r (Stroke (qmax 0 (x_w e)) r))) (Move 0 (- H) (Move 0 r (Drop D (Move 0 (x_h e) f))))).
    cbn [PicSpec.ink]. apply f_equal2; [|f_equal; ring].
    destruct (qltb 0 r); [|reflexivity]. do 2 f_equal; apply f_equal; ring.
  - intros k x y. cbn [PicSpec.ink]. apply f_equal2; [|f_equal; ring].
    destruct (qltb 0 r); [|reflexivity]. do 2 f_equal; apply f_equal; ring.
Qed.

Lemma hb_eq t e f g : hb t (e, f) -> (forall k x y, ink k x y f = ink k x y g) -> hb t (e, g).
Proof. intros (H & Y & L) E. split; [exact H|]. split; [exact Y|]. intros. cbn [snd] in *. rewrite L by assumption. apply E. Qed.
Lemma wrap_hb body b t (s : S) : hb body b -> natural_h (A:=exact) [body] t -> hb t b.
Proof.
  intros HB N. destruct b as [e f]. pose proof HB as [HX _]. cbn [fst] in HX. pose proof HX as (b0 & gs0 & l0 & EB & _ & _ & _ & _ & P1 & P2).
  assert (H : hb t (box_of M [(Solid e, f)])).
  { refine (natural_hb be parse_float M size dpi MB _ _ _ s _ _ N); [constructor; [exact (hb_rep2 M dpi _ _ HB)|constructor]|].
    intros x [<-|[]]. rewrite EB. exact I. }
  unfold box_of in H. cbn [map fst] in H. rewrite (row_one M e P1 P2) in H. eapply hb_eq; [exact H|].
  intros. cbn [lay PicSpec.ink]. rewrite app_nil_r. f_equal; ring.
Qed.

Lemma overline_hb body b typ s t s' : hb body b -> overline_box be body (stt typ) s = LOk (t, s') ->
  let th := line M (face typ) in let e := clearance size dpi in
  hb t (overline M th e (fst b), lined th 0 (x_w (fst b)) (x_h (fst b) + (th + th + th) + e) b).
Proof.
  intros HB E th0 e0. destruct b as [e f]. pose proof HB as [HX _]. cbn [fst snd] in *.
  pose proof (overline_size be parse_float M size dpi MB _ _ _ _ _ _ HX E) as HS.
  apply (overline_ok be eq_refl) in E as (th & s1 & rule & T1 & T2 & OV); [|reflexivity|eapply hx_stiff; exact HX].
  pose proof MB as (_ & _ & ML & _). unfold thick in T1, T2. apply ML in T1 as [-> TH]; [|reflexivity]. apply ML in T2 as [-> _]; [|reflexivity].
  change (st_font (stt typ)) with (face typ) in *. rewrite extra_ok in OV. destruct OV as (inner & rhs & N1 & UB & N2).
  destruct (hx_above _ _ HX) as [HA HBe]. rewrite HA, HBe in UB. fold th0 in UB, TH. fold e0 in UB.
  replace (fadd exact (fadd exact (Fin (x_h e)) (fmul exact (fofZ exact 3) (Fin th0))) (Fin e0))
    with (Fin (x_h e + (th0 + th0 + th0) + e0)) in UB by (fins; apply f_equal; ring).
  pose proof (wrap_hb _ _ _ s HB N1) as HI. pose proof (bar_child _ _ _ _ _ _ _ HI UB (Qcle_refl _) TH) as CH.
  destruct (bar_ok M dpi _ _ _ _ _ _ (proj1 HI) UB) as [R ST]. cbn [fst] in R.
  set (fig := Join _ _) in CH.
  assert (H : hb t (box_of M [(Solid (mk_ext (qmax 0 (x_w e)) (x_h e + (th0 + th0 + th0) + e0) (qmin (x_d e) (x_d e))), fig)])).
  { refine (natural_hb be parse_float M size dpi MB _ _ _ s _ _ N2); [constructor; [split; [exact R|exact CH]|constructor]|]. intros x [<-|[]]. exact ST. }
  split; [exact HS|]. destruct H as [_ (Y & L)]. split; [exact Y|]. cbn [snd] in L |- *. intros. rewrite L by assumption.
  unfold fig, box_of, lined. cbn [snd fst lay PicSpec.ink]. rewrite app_nil_r. apply f_equal2; [|f_equal; ring].
  destruct (qltb 0 th0); [|reflexivity]. do 2 f_equal; apply f_equal; ring.
Qed.

Lemma vlist_child inner b vl sh : hb inner b -> natural_v (A:=exact) [inner] vl -> child (set_shift (Fin sh) vl) (Move 0 sh (snd b)).
Proof.
  intros HB N. destruct b as [e f]. pose proof HB as [HX (Y & _)]. cbn [fst snd] in *.
  pose proof (natural_v_box _ _ N) as (b0 & gs0 & EV & BS).
  assert (BH : b_height b0 = Fin (x_h e)).
  { pose proof HX as (bi & gi & li & -> & _ & W & Hh & Hd & _). unfold natural_v, list_of in N.
    cbn [vpack vfold vpack_dims dims0 d_d d_h d_w] in N. rewrite W, Hh, Hd, finf_fin in N.
    cbn [d_d d_h d_w] in N. change (fltb exact (fpinf exact) (Fin (x_d e))) with false in N. cbv iota in N.
    rewrite EV in N. match type of N with LOk (TL _ ?bb _ _ _) = LOk _ => assert (N' : b0 = bb) by (inversion N; reflexivity) end. rewrite N'.
    cbn [b_height]. fins. apply f_equal. ring. }
  clear N. subst vl. cbn [set_shift]. apply vlooks_child. split.
  - apply young_list. split; [lia|]. constructor; [exact Y|constructor].
  - intros k n ox oy x v K. rewrite scaled_tl, draws_unfold. cbn [map t_box each app].
    set (bx := sbx k n b0). assert (BH' : b_height bx = Fin (x_h e * k)) by (unfold bx, sbx; cbn [b_height]; now rewrite BH).
    set (g := sgs k gs0) in *.
    assert (V0 : vpos g (fsub exact (Fin v) (b_height bx)) [] = Fin (v - x_h e * k)) by (rewrite BH'; reflexivity).
    rewrite (sub_ink g x v ox oy bx inner _ _ k n _ _ K HB V0), app_nil_r. cbn [PicSpec.ink]. f_equal; ring.
Qed.

Lemma delimiter_deep c f H D : (D <= x_d (delimiter M c f H D))%Qc.
Proof.
  unfold delimiter. cbn [x_d]. match goal with |- (_ <= ?a)%Qc => set (z := a) end.
  unfold z. clear z. set (f' := resize _ _). pose proof (proj2 (qmax_ge 0 (down M c f' true))) as G. set (d' := down M c f' true) in *. set (m := qmax 0 d') in *.
  clearbody d' m. unfold Qcle in *. rewrite this_plus, this_minus. lra.
Qed.

Lemma sqrt_hb root i body b typ s t s' :
  match root, i with Some r, Some i => hb r i | None, None => True | _, _ => False end ->
  hb body b -> sqrt_box be root body (stt typ) s = LOk (t, s') ->
  rep2 (root_shape M (line M (face typ)) (clearance size dpi) (face typ) (option_map (fun i => small (small i)) i) b) t.
Proof.
  intros HR HB E. destruct b as [e f]. pose proof HB as [HX _]. cbn [fst] in HX.
  apply (sqrt_ok be eq_refl) in E as (th & s1 & check & s2 & rule & s3 & r & T1 & CK & T2 & IX & RD);
    [|reflexivity|eapply hx_stiff; exact HX|intros r ->; destruct i; [eapply hx_stiff; apply HR|destruct HR]].
  pose proof MB as (_ & _ & ML & _). unfold thick in T1, T2. apply ML in T1 as [-> TH]; [|reflexivity]. apply ML in T2 as [-> _]; [|reflexivity].
  change (st_font (stt typ)) with (face typ) in *. rewrite extra_ok in RD. set (th := line M (face typ)) in *.
  destruct (hx_above _ _ HX) as [HA HBe]. rewrite HA, HBe in CK.
  replace (fadd exact (Fin (x_h e)) (fmul exact (fofZ exact 5) (Fin th))) with (Fin (x_h e + (th + th + th + th + th))) in CK
    by (fins; apply f_equal; ring).
  pose proof (delim2 be parse_float M size dpi MB _ _ _ _ _ _ _ (or_intror (or_intror (or_introl eq_refl))) CK) as RC.
  destruct (delimiter_ok be parse_float M size dpi MB _ _ _ _ _ _ _ (or_intror (or_intror (or_introl eq_refl))) CK) as (bc & sc & gc & lc & EC & WC & AC & BC).
  unfold root_shape. cbn [fst snd].
  pose proof (delimiter_deep "\__sqrt__" (face typ) (x_h e + (th + th + th + th + th)) (x_d e)) as DEEP.
  set (c := delimiter M "\__sqrt__" (face typ) (x_h e + (th + th + th + th + th)) (x_d e)) in *.
  destruct RD as (padded & rhs & inner & vl & N1 & UB & N2 & N3 & N4).
  assert (TW : t_width check = Fin (x_w c)) by (rewrite EC; exact WC).
  rewrite AC, BC in UB. rewrite AC, TW in N4.
  pose proof HX as (b0 & gs0 & l0 & EB & _ & _ & _ & _ & P1 & P2).
  (* the padded body *)
  assert (HP : hb padded (mk_ext (x_w e + (th + th + th + th)) (x_h e) (x_d e), Move (th + th) 0 f)).
  { assert (ER : mk_ext (x_w e + (th + th + th + th)) (x_h e) (x_d e) = row M [Solid (gap (th + th)); Solid e; Solid (gap (th + th))]).
    { unfold SizeSpec.row. cbn [row_width map fold_left tall deep gap x_w x_h x_d].
      rewrite (qmax_l 0 0) by apply Qcle_refl. rewrite (qmax_r 0 (x_h e)), (qmax_r 0 (x_d e)), !qmax_0 by assumption. f_equal. ring. }
    rewrite ER.
    replace (fmul exact (fofZ exact 2) (Fin th)) with (Fin (th + th)) in N1 by (fins; apply f_equal; ring).
    eapply (hb_eq _ _ (lay M 0 [space (th + th); (Solid e, f); space (th + th)])).
    - refine (natural_hb be parse_float M size dpi MB [space (th + th); (Solid e, f); space (th + th)] _ _ s _ _ N1).
      + constructor; [apply hbox_rep2|]. constructor; [exact (hb_rep2 M dpi _ _ HB)|]. constructor; [apply hbox_rep2|constructor].
      + intros x [<-|[<-|[<-|[]]]]; try exact I. rewrite EB. exact I.
    - intros. cbn [lay space step gap x_w PicSpec.ink app]. rewrite app_nil_r. f_equal; ring. }
  replace (fadd exact (Fin (x_h c)) (Fin (clearance size dpi))) with (Fin (x_h c + clearance size dpi)) in UB by reflexivity.
  destruct (bar_ok M dpi _ _ _ _ _ _ (proj1 HP) UB) as [RU SU]. cbn [fst x_w x_d] in RU.
  pose proof (bar_child _ _ _ _ _ _ _ HP UB DEEP TH) as CU. cbn [x_w x_h] in CU.
  (* the index *)
  set (ix := match option_map (fun i => small (small i)) i with Some i => i | None => (gap (x_w c * Q2Qc (1 # 2)), Blank) end).
  assert (HI : hb inner ix).
  { destruct root as [x|], i as [ie|]; try (exfalso; exact HR); cbn [index_of option_map] in IX; subst ix; cbn [option_map].
    - destruct IX as (x1 & s4 & S1 & S2). eapply shrink_hb in S1; [|exact HR]. eapply shrink_hb in S2; [|exact S1].
      exact (wrap_hb _ _ _ s S2 N2).
    - destruct IX as [-> _]. rewrite TW in N2.
      rewrite <- (row_one M (gap (x_w c * Q2Qc (1 # 2)))) by apply Qcle_refl.
      eapply (hb_eq _ _ (lay M 0 [space (x_w c * Q2Qc (1 # 2))])).
      + refine (natural_hb be parse_float M size dpi MB [space (x_w c * Q2Qc (1 # 2))] _ _ s _ _ N2); [constructor; [apply hbox_rep2|constructor]|].
        intros y [<-|[]]. exact I.
      + intros. reflexivity. }
  replace (fmul exact (fopp exact (Fin (x_h c))) (frat 3 5)) with (Fin (- (x_h c * Q2Qc (3 # 5)))) in N4
    by (rewrite frat_35; fins; apply f_equal; ring).
  replace (fmul exact (fopp exact (Fin (x_w c))) (frat 1 2)) with (Fin (- (x_w c * Q2Qc (1 # 2)))) in N4
    by (fins; unfold half; apply f_equal; ring).
  destruct (vlist_one M dpi _ _ _ (- (x_h c * Q2Qc (3 # 5))) (proj1 HI) N3) as [RV SV].
  pose proof (vlist_child _ _ _ (- (x_h c * Q2Qc (3 # 5))) HI N3) as CV.
  apply (hb_rep2 M dpi t (box_of M _)). refine (natural_hb be parse_float M size dpi MB _ _ _ s _ _ N4).
  - constructor.
    { split; [|exact CV]. cbn [fst]. replace (x_h (fst ix) + x_h c * Q2Qc (3 # 5))%Qc with (x_h (fst ix) - - (x_h c * Q2Qc (3 # 5)))%Qc by ring. exact RV. }
    constructor; [apply space_rep2|]. constructor; [exact RC|]. constructor; [|constructor].
    split; [exact RU|]. cbn [snd]. eapply child_eq; [exact CU|]. intros. unfold lined. cbn [fst snd PicSpec.ink].
    apply f_equal2; [reflexivity|]. f_equal; ring.
  - intros y [<-|[<-|[<-|[<-|[]]]]]; [exact SV|exact I|rewrite EC; exact I|exact SU].
Qed.
End Pic2.
