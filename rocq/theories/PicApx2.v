(** Proof of the float64 picture bounds: fractions. *)
From Coq Require Import ZArith String Ascii List Bool Lia QArith Qcanon Qreals Reals Lqa Lra Psatz.
From Flocq Require Import Core.Core IEEE754.BinarySingleNaN IEEE754.PrimFloat.
From Verif Require Import Utf8 Token Ast SetTable Parser Symbols PropSymbols TreeSpec Arith Exact OrderLaws Box Ship ShipSpec ShipFacts ShipFacts2
  PackSpec PackFacts ExactFacts PropPack PropShip Mtex MtexTable MtexSpec FracSpec MtexFacts MtexFacts2 MtexFacts4 MtexFacts5 PropMtex ReadSpec ReadFacts
  RadFacts GeomSpec GeomFacts GeomFacts2 SizeSpec SizeFacts Float64Facts PropError PropRows PropCost PicSpec Apx ApxSpec SizeApx TtfRound PicApxSpec PicApx.
From Coq Require Import Floats Lra.
Import SizeSpec ApxSpec.
Import ListNotations.
Local Open Scope string_scope.
Local Open Scope list_scope.
Local Open Scope R_scope.

Lemma drawn_move e d k x y dx dy f c x' y' : drawn e d k x' y' f c -> x' = x + k * real dx -> y' = y + k * real dy -> drawn e d k x y (Move dx dy f) c.
Proof. intros H -> ->. exact H. Qed.
Lemma drawn_join e d k x y f g c1 c2 : drawn e d k x y f c1 -> drawn e d k x y g c2 -> drawn e d k x y (Join f g) (c1 ++ c2).
Proof. intros H1 H2. exists c1, c2. auto. Qed.

(** ** Signs *)
Lemma ltb_iff x y : finite x -> finite y -> fltb float64 x y = Rlt_bool (R_of x) (R_of y).
Proof. intros Fx Fy. change (PrimFloat.ltb x y = Rlt_bool (R_of x) (R_of y)). rewrite ltb_equiv. now apply Bltb_correct. Qed.
Lemma add_nonneg a b : finite a -> finite b -> finite (a + b)%float -> 0 <= R_of a + R_of b -> 0 <= R_of (a + b)%float.
Proof.
  intros Fa Fb. rewrite add_equiv. pose proof (Bplus_correct FloatOps.prec FloatOps.emax Hprec Hmax mode_NE (Prim2B a) (Prim2B b) Fa Fb) as C.
  destruct (Rlt_bool _ _).
  - destruct C as (A1 & A2 & _). rewrite A1. intros _ P. exact (rnd_pos _ P).
  - intros F. exfalso. destruct C as [C _]. destruct (Bplus mode_NE (Prim2B a) (Prim2B b)); try discriminate F; cbn in C; unfold binary_overflow in C; cbn in C; discriminate C.
Qed.
Lemma sub_nonneg a b : finite a -> finite b -> finite (a - b)%float -> R_of b <= R_of a -> 0 <= R_of (a - b)%float.
Proof.
  intros Fa Fb. rewrite sub_equiv. pose proof (Bminus_correct FloatOps.prec FloatOps.emax Hprec Hmax mode_NE (Prim2B a) (Prim2B b) Fa Fb) as C.
  destruct (Rlt_bool _ _).
  - destruct C as (A1 & A2 & _). rewrite A1. intros _ P. apply (rnd_pos (R_of a - R_of b)). lra.
  - intros F. exfalso. destruct C as [C _]. destruct (Bminus mode_NE (Prim2B a) (Prim2B b)); try discriminate F; cbn in C; unfold binary_overflow in C; cbn in C; discriminate C.
Qed.
Lemma mul_nonneg a b : finite a -> finite b -> finite (a * b)%float -> 0 <= R_of a -> 0 <= R_of b -> 0 <= R_of (a * b)%float.
Proof.
  intros Fa Fb. rewrite mul_equiv. pose proof (Bmult_correct FloatOps.prec FloatOps.emax Hprec Hmax mode_NE (Prim2B a) (Prim2B b)) as C.
  destruct (Rlt_bool _ _).
  - destruct C as (A1 & A2 & _). rewrite A1. intros _ P Q. apply (rnd_pos (R_of a * R_of b)). now apply Rmult_le_pos.
  - intros F. exfalso. destruct (Bmult mode_NE (Prim2B a) (Prim2B b)); try discriminate F; cbn in C; unfold binary_overflow in C; cbn in C; discriminate C.
Qed.
Lemma shrink_pos : finite (@shrink_factor float64) /\ 0 <= R_of (@shrink_factor float64).
Proof. destruct shrink_const as [F V]. split; [exact F|]. pose proof u_8192. apply Rabs_le_inv in V. lra. Qed.

(** ** Rounded glue *)
Lemma cut_lip a b : Rabs (cut a - cut b) <= Rabs (a - b).
Proof. unfold cut, Rmax, Rmin. repeat destruct (Rle_dec _ _); unfold Rabs; repeat destruct (Rcase_abs _); lra. Qed.
Lemma cut_le a : Rabs (cut a) <= Rabs a /\ Rabs (cut a) <= 1000000000.
Proof. unfold cut, Rmax, Rmin. repeat destruct (Rle_dec _ _); unfold Rabs; repeat destruct (Rcase_abs _); lra. Qed.
Lemma clamp_ok v : finite v -> finite (clamp (A := float64) v) /\ R_of (clamp (A := float64) v) = cut (R_of v).
Proof.
  intros F. destruct (ofZ_exact (-1000000000) ltac:(reflexivity)) as [F1 V1]. destruct (ofZ_exact 1000000000 ltac:(reflexivity)) as [F2 V2].
  unfold clamp. change (fofZ float64 (-1000000000)) with (Float64.ofZ (-1000000000)). change (fofZ float64 1000000000) with (Float64.ofZ 1000000000).
  set (lo := Float64.ofZ (-1000000000)) in *. set (hi := Float64.ofZ 1000000000) in *. cbv zeta.
  rewrite !ltb_iff by assumption. rewrite V1, V2. unfold cut.
  destruct (Rlt_bool_spec (R_of v) (-1000000000)) as [L|L].
  - split; [exact F1|]. rewrite V1, Rmin_right, Rmax_left; lra.
  - destruct (Rlt_bool_spec 1000000000 (R_of v)) as [L'|L'].
    + split; [exact F2|]. rewrite V2, Rmin_left, Rmax_right; lra.
    + split; [exact F|]. rewrite Rmin_right, Rmax_right; lra.
Qed.

Section PicApx2.
Context {S : Type}.
Variable be : @backend float64 S.
Variable parse_float : string -> option float.
Variable M : measures.
Variables (size dpi : Qc) (fsize fdpi : float) (B N : R).
Variables (fox foy : float) (rox roy no : R).
Notation tnode := (@Box.tnode float64).
Notation state := (@Box.state float64).
Notation face := (face size).
Hypothesis MB : measured64 B M size dpi fsize fdpi be parse_float.
Hypothesis B1 : 1 <= B.
Hypothesis BM : B <= bpow radix2 900.
Hypothesis N1 : 1 <= N.
Hypothesis NM : N <= bpow radix2 26.
Hypothesis NBIG : 128 <= N.
Notation ap := (Apx.ap B N).
Notation ap_add := (Apx.ap_add B N B1 BM N1 NM).
Notation ap_sub := (Apx.ap_sub B N B1 BM N1 NM).
Notation ap_mono := (Apx.ap_mono B N B1 N1).
Notation ap_max := (Apx.ap_max_sum B N B1 N1).
Notation ap_zero := (Apx.ap_zero B N B1 N1).
Notation hx := (SizeApx.hx B N).
Hypothesis AOX : ap 1 fox rox.
Hypothesis AOY : ap no foy roy.
Hypothesis NO : 0 <= no.
Notation tol := (PicApx.tol B N).
Notation drawn := (drawn tol fdpi).
Notation kr j := (real (kj j)).
Notation shr := PicApx.shr.
Notation looks := (looks fdpi B N fox foy rox roy no).
Notation vlooks := (vlooks fdpi B N fox foy rox roy no).
Notation hb := (hb fdpi B N fox foy rox roy no).
Notation keep := (keep B N B1 BM N1 NM).
Notation ap_about := (ap_about B N B1 N1).

Lemma glue_round nv v q : ap nv v q -> nv + 1 <= N -> let z := Float64.round (clamp (A := float64) v) in
  ap (nv + 2) (Float64.ofZ z) (IZR z) /\ Rabs (IZR z - cut q) <= 1 / 2 + tol.
Proof.
  intros A L z. pose proof (ap_fin _ _ _ _ _ A) as F. destruct (clamp_ok v F) as [FC VC]. unfold z. rewrite (round_exact _ FC), VC. clear z.
  pose proof (Znearest_half (Z.leb 0) (cut (R_of v))) as H. set (z := ZnearestA (cut (R_of v))) in *. change (Znearest (Z.leb 0) (cut (R_of v))) with z in H.
  destruct (cut_le (R_of v)) as [L1 L2]. pose proof (ap_size B N B1 N1 NM _ _ _ A ltac:(lra)) as SZ.
  pose proof (ap_ge _ _ _ _ _ A).
  assert (LZ : Rabs (IZR z) <= Rabs (cut (R_of v)) + / 2).
  { rewrite Rabs_minus_sym in H. pose proof (Rabs_triang (cut (R_of v)) (IZR z - cut (R_of v))) as T. replace (cut (R_of v) + (IZR z - cut (R_of v))) with (IZR z) in T by ring. lra. }
  split.
  - destruct (ofZ_exact z) as [FZ VZ].
    { apply lt_IZR. rewrite abs_IZR. eapply Rle_lt_trans; [exact LZ|]. change (IZR (2 ^ 53)) with 9007199254740992. lra. }
    apply (ap_exact B N B1 N1); [exact FZ|exact VZ| |lra]. lra.
  - destruct (ap_about _ _ _ A ltac:(lra)) as [_ AB]. pose proof (cut_lip (R_of v) q). rewrite Rabs_minus_sym in H.
    pose proof (Rabs_triang (IZR z - cut (R_of v)) (cut (R_of v) - cut q)) as T.
    replace (IZR z - cut (R_of v) + (cut (R_of v) - cut q)) with (IZR z - cut q) in T by ring. lra.
Qed.

Lemma centred_set W nW rW rw n x t : centred (A := float64) W x t -> ap nW W (real rW) -> ap n (t_width x) (real rw) -> plain x ->
  R_of (t_width x) <= R_of W -> nW + n + 60 <= N ->
  exists b gs, t = TL KHList b f0 gs [glue_ss; x; glue_ss] /\ b_size b = 0%Z /\
  forall j, exists v, ap (nW + n + 53) v (real (kj j * ((rW - rw) * Q2Qc (1 # 2)))) /\
    glue_upto (A := float64) (shg j gs) [shr j glue_ss] = Float64.round (clamp (A := float64) v).
Proof.
  intros (b & gs & -> & BS) AW Aw NG LE LN. set (l := [glue_ss; x; glue_ss]).
  pose proof (C26_hpack_glue float64 W false b f0 gs l) as GS. cbv zeta in GS.
  set (t := hpack (A := float64) W false (TL KHList b f0 gs l)) in *.
  assert (TW : t_width t = W) by reflexivity. rewrite TW in GS.
  pose proof (ap_ge _ _ _ _ _ AW). pose proof (ap_ge _ _ _ _ _ Aw).
  assert (SW : fsum (A := float64) (map t_width l) = ((0 + 0) + t_width x + 0)%float) by reflexivity.
  rewrite SW in GS. change (fsub float64 W ((0 + 0) + t_width x + 0)%float) with (W - ((0 + 0) + t_width x + 0))%float in GS.
  destruct (add_zero_R (t_width x) (0 + 0)%float (ap_fin _ _ _ _ _ Aw)) as [F1 V1]; [vm_compute; reflexivity|change (0 + 0)%float with 0%float; apply zero_int|].
  destruct (plus_zero _ F1) as [F2 V2]. rewrite V1 in V2. set (sw := ((0 + 0) + t_width x + 0)%float) in *.
  assert (As : ap n sw (real rw)) by (eapply Apx.ap_eq; [exact Aw|exact F2|exact V2]).
  pose proof (ap_sub _ _ _ _ _ _ AW As ltac:(lra)) as Ad.
  assert (P : 0 <= R_of (W - sw)%float). { apply sub_nonneg; [eapply ap_fin; exact AW|exact F2|eapply ap_fin; exact Ad|rewrite V2; exact LE]. }
  set (d := (W - sw)%float) in *. clearbody d.
  assert (TS : forall o, (o <= 3)%nat -> tot_stretch (A := float64) l o = if Nat.eqb o 1 then 2%float else 0%float).
  { intros o Ho. unfold tot_stretch, l. cbn [flat_map glue_ss g_stretch_order g_stretch].
    assert (EX : match x with TGlue g => if Nat.eqb (g_stretch_order g) o then [g_stretch g] else [] | _ => [] end = []) by (destruct x; try reflexivity; destruct NG).
    rewrite EX. destruct o as [|[|o]]; vm_compute; reflexivity. }
  assert (ZR : PackSpec.zero (A := float64) d -> R_of d = 0) by (intros Z; apply eqb_zero; [eapply ap_fin; exact Ad|exact Z]).
  assert (RZ : R_of d = 0 -> PackSpec.zero (A := float64) d).
  { intros Z. change (PrimFloat.eqb d 0 = true). rewrite eqb_equiv, Beqb_correct; [|eapply ap_fin; exact Ad|apply zero_int].
    rewrite (proj2 zero_int). apply Req_bool_true. exact Z. }
  assert (LT0 : fltb float64 f0 d = false -> PackSpec.zero (A := float64) d).
  { rewrite f0_is, ltb_iff; [|apply zero_int|eapply ap_fin; exact Ad]. rewrite (proj2 zero_int). destruct (Rlt_bool_spec 0 (R_of d)) as [LL|LL]; [intros Q; discriminate Q|].
    intros _. apply RZ. lra. }
  destruct two_int as [F2' V2'].
  assert (A2 : ap (nW + n + 1 + 2) (d / 2)%float (real ((rW - rw) * Q2Qc (1 # 2)))).
  { eapply Apx.ap_val; [apply (Apx.div_ap B N B1 BM N1 NM) with (k := 2); [exact Ad|lra|exact V2'|lra]|]. reals. rewrite real_rat. lra. }
  eexists _, (t_glue t). split; [reflexivity|]. split; [exact BS|]. set (g := t_glue t) in *. clearbody g. intros j.
  inversion GS as [g0 Z S0 E0|g0 NZ LT S0 HI ST E0|g0 NZ LT S0 HI ST E0|g0 NZ S0 RG E0]; subst g0.
  - assert (GU : glue_upto (A := float64) (shg j g) [shr j glue_ss] = 0%Z).
    { unfold glue_upto, elastics, glue_ss. rewrite shr_glue. cbn [flat_map elastic shg gs_sign]. rewrite S0. reflexivity. }
    rewrite GU. exists 0%float. split; [|vm_compute; reflexivity]. rewrite <- (mulj_0 j). eapply ap_mono; [eapply (keep j (nW + n + 1 + 2) (nW + n + 1 + 2 + 37)); [|lra|lra|lra]|lra].
    eapply Apx.ap_eq; [exact A2|apply zero_int|]. rewrite (proj2 zero_int).
    destruct (div_rnd d 2%float (ap_fin _ _ _ _ _ Ad)) as [_ DN].
    + rewrite V2'. lra.
    + replace (R_of d / R_of 2%float) with 0 by (rewrite (ZR Z); lra). rewrite Rabs_R0. apply bpow_ge_0.
    + rewrite DN. replace (R_of d / R_of 2%float) with 0 by (rewrite (ZR Z); lra). symmetry. unfold rnd. apply round_0. apply valid_rnd_N.
  - assert (O1 : gs_order g = 1%nat).
    { destruct HI as (Ho & Hz & _). rewrite TS in Hz by assumption.
      destruct (Nat.eqb_spec (gs_order g) 1) as [->|]; [reflexivity|]. exfalso. apply Hz. vm_compute. reflexivity. }
    rewrite O1, TS in ST by lia. cbn [Nat.eqb] in ST. change (fdiv float64 d 2%float) with (d / 2)%float in ST.
    exists (mulj j (d / 2) * 1)%float. split.
    + replace (real (kj j * ((rW - rw) * Q2Qc (1 # 2)))) with (real (kj j * ((rW - rw) * Q2Qc (1 # 2))) * 1) by ring.
      eapply ap_mono; [apply (ap_small B N B1 BM N1 NM (nW + n + 3 + 37)); [eapply keep; [exact A2|lra|lra|lra]|lra|apply const_exact; apply one_int|apply Rabs_le; lra]|lra].
    + unfold glue_upto, elastics, glue_ss. rewrite shr_glue. cbn [flat_map elastic shg gs_sign gs_order gs_set g_stretch_order g_stretch].
      rewrite S0. cbn [Z.eqb Pos.eqb]. rewrite O1, ST. cbn [Nat.eqb app]. reflexivity.
  - exfalso. exact (NZ (LT0 LT)).
  - exfalso. destruct (fltb float64 f0 d) eqn:LT.
    + specialize (RG 1%nat). rewrite TS in RG by lia. cbn [Nat.eqb] in RG. assert (Q : PackSpec.zero (A := float64) 2%float) by (apply RG; lia). vm_compute in Q. discriminate Q.
    + exact (NZ (LT0 eq_refl)).
Qed.

Lemma glue_young : young glue_ss. Proof. split; [exact I|constructor; [cbn; lia|constructor]]. Qed.
Lemma centred_hb K W nW rW e f n x t : 1 <= K -> hb K x (e, f) n -> centred (A := float64) W x t -> ap nW W (real rW) -> R_of (t_width x) <= R_of W -> nW + n + 60 <= N ->
  exists b gs l nh nd, t = TL KHList b f0 gs l /\ l <> [] /\ (b_size b <= 0)%Z /\ b_width b = W /\ ap nh (b_height b) (real (x_h e)) /\ ap nd (b_depth b) (real (x_d e)) /\ nh + nd <= n /\
    looks 1 t (Slide ((rW - x_w e) * Q2Qc (1 # 2)) f) (nW + n + 60 + K * n).
Proof.
  intros K1 HB C AW LE LN. pose proof HB as [HX Lk]. cbn [fst snd] in HX, Lk.
  pose proof HX as (bx & gx & lx & nh & nd & EX & BS & L0 & Aw & Ah & Ad & P1 & P2).
  destruct (centred_dims B N B1 N1 W x t bx gx lx nh nd _ _ C EX Ah Ad P1 P2) as (b & gs & l & Et & A1 & A2 & A3).
  destruct (centred_set W nW rW (x_w e) n x t C AW) as (b' & gs' & ET & BS' & SN); [rewrite EX; exact Aw|rewrite EX; exact I|exact LE|exact LN|].
  rewrite Et in ET. assert (b' = b) by (inversion ET; reflexivity). subst b'. assert (gs' = gs) by (inversion ET; reflexivity). subst gs'.
  assert (El : l = [glue_ss; x; glue_ss]) by (inversion ET; reflexivity). clear ET. subst l t.
  exists b, gs, [glue_ss; x; glue_ss], nh, nd. split; [reflexivity|]. split; [discriminate|]. split; [lia|]. split; [exact A1|]. split; [exact A2|]. split; [exact A3|]. split; [exact L0|].
  pose proof (ap_ge _ _ _ _ _ AW) as PW. pose proof (ap_ge _ _ _ _ _ Aw) as Pn. pose proof (Rmult_le_pos K n ltac:(lra) Pn) as PK. split.
  - apply young_list. split; [lia|]. constructor; [apply glue_young|]. constructor; [apply Lk|]. constructor; [apply glue_young|constructor].
  - intros j bx0 x0 v X Y m m' HX0 HY L1 L2. rewrite shr_tl, draws_unfold. cbn [map]. cbn [each app].
    destruct (SN j) as (w & Av & GU). destruct (glue_round _ _ _ Av ltac:(lra)) as [AZ DZ]. set (z := Float64.round (clamp (A := float64) w)) in *.
    assert (EG : exists g, shr j glue_ss = TGlue g /\ g_width g = 0%float).
    { eexists. split; [unfold glue_ss; apply shr_glue|]. cbn [g_width]. rewrite f0_is. apply mulj_0. }
    destruct EG as (g & EG & GW). rewrite EG in *.
    assert (HP : ap (m + (nW + n + 55) + 1) (hpos (shg j gs) x0 [TGlue g]) (X + IZR z)).
    { unfold hpos. cbn [ShipSpec.after right_of]. unfold right_of, glue_size. cbn [app]. rewrite GU, GW. cbn [fadd fsub float64].
      change (glue_upto (shg j gs) []) with 0%Z. change (0 - fofZ float64 0)%float with 0%float. change (fofZ float64 z) with (Float64.ofZ z).
      apply ap_add; [exact HX0| |lra]. apply zero_plus. eapply ap_mono; [exact AZ|lra]. }
    assert (CH : child fdpi B N fox foy rox roy no K x f n) by (rewrite EX in Lk |- *; now apply looks_child).
    destruct CH as (_ & _ & CH). cbn [hdraw app]. rewrite app_nil_r.
    cbn [PicApxSpec.drawn]. exists (IZR z). split.
    + rewrite <- real_mult. exact DZ.
    + eapply drawn_eq; [eapply (CH j bx0 (shg j gs) x0 v [TGlue g]); [exact HP|exact HY|lra|lra]|reflexivity|ring|reflexivity].
Qed.

(** ** Vertical lists *)
Lemma mulj_nonneg j n x q : ap n x (real q) -> n + 38 <= N -> 0 <= R_of x -> 0 <= R_of (mulj j x).
Proof.
  intros A L P. pose proof (ap_ge _ _ _ _ _ A). induction j as [|j IH]; [exact P|].
  pose proof (keep (Datatypes.S j) n (n + 37) x q A ltac:(lra) ltac:(lra) ltac:(lra)) as A2. rewrite mulj_S in *.
  pose proof (keep j n (n + 37) x q A ltac:(lra) ltac:(lra) ltac:(lra)) as A1. destruct shrink_pos.
  apply mul_nonneg; [eapply ap_fin; exact A1|assumption|eapply ap_fin; exact A2|exact IH|assumption].
Qed.
Lemma vpos_snoc gs top pre (t : tnode) : vpos (A := float64) gs top (pre ++ [t]) = below gs pre t (vpos gs top pre).
Proof.
  unfold vpos. assert (G : forall r p0 q, after (below gs) q p0 (r ++ [t]) = below gs (p0 ++ r) t (after (below gs) q p0 r)).
  { induction r as [|y r IH]; intros p0 q; cbn [after app]; [now rewrite app_nil_r|]. rewrite IH, <- app_assoc. reflexivity. }
  apply G.
Qed.
Lemma invisible a b : finite a -> finite b -> finite (a + b)%float -> 0 <= R_of a -> 0 <= R_of b -> (R_of b = 0 -> R_of a = 0) ->
  fltb float64 f0 (a + b)%float && fltb float64 f0 b = false -> R_of (a + b)%float = 0.
Proof.
  intros Fa Fb Fc Pa Pb AB. rewrite f0_is, !ltb_iff; try assumption; try apply zero_int. rewrite (proj2 zero_int).
  pose proof (add_nonneg a b Fa Fb Fc ltac:(lra)) as P.
  destruct (Rlt_bool_spec 0 (R_of (a + b)%float)); [|intros _; lra]. destruct (Rlt_bool_spec 0 (R_of b)); [intros E; discriminate E|]. intros _.
  assert (Z : R_of b = 0) by lra. destruct (zero_add_R a b Fa Fb Z) as [_ V]. rewrite V. auto.
Qed.
Lemma below_box j gs pre h n q p m X : ap n h (real q) -> n <= 37 -> 0 <= R_of h -> ap m p X -> m + 40 <= N -> 80 <= N ->
  ap (m + 38) (below (A := float64) gs pre (shr j (vbox f0 h)) p) (X + real (kj j * q)).
Proof.
  intros A L P Ap LN L8. pose proof (ap_ge _ _ _ _ _ A). pose proof (ap_ge _ _ _ _ _ Ap). unfold vbox. rewrite shr_box. cbn [below]. unfold vvisible. cbn [t_height t_depth new_box shb b_height b_depth].
  rewrite !f0_is, !mulj_0. cbn [fadd float64].
  pose proof (keep j n 37 h q A L ltac:(lra) ltac:(lra)) as AK. pose proof (mulj_nonneg j n h q A ltac:(lra) P) as PK.
  pose proof (zero_plus B N _ _ _ AK) as AZ.
  destruct (fltb float64 0%float (0 + mulj j h)%float && fltb float64 0%float (mulj j h)) eqn:V.
  - eapply ap_mono; [apply ap_add; [exact Ap|exact AZ|lra]|lra].
  - apply invisible in V; [|apply zero_int|eapply ap_fin; exact AK|eapply ap_fin; exact AZ|rewrite (proj2 zero_int); lra|exact PK|intros _; apply zero_int].
    eapply ap_mono; [eapply (ap_skip B N); [exact Ap|exact AZ|exact V]|lra].
Qed.
Lemma below_list j gs pre b g l e_h e_d nh nd p m X : l <> [] -> ap nh (b_height b) (real e_h) -> ap nd (b_depth b) (real e_d) -> ap m p X ->
  m + nh + nd + 80 <= N -> ap (m + nh + nd + 76) (below (A := float64) gs pre (shr j (TL KHList b f0 g l)) p) (X + real (kj j * e_h) + real (kj j * e_d)).
Proof.
  intros NE Ah Ad Ap L. pose proof (ap_ge _ _ _ _ _ Ah). pose proof (ap_ge _ _ _ _ _ Ad). pose proof (ap_ge _ _ _ _ _ Ap).
  rewrite shr_tl. destruct l as [|y l]; [now destruct NE|]. cbn [map below t_height t_depth shb b_height b_depth]. cbn [fadd float64].
  eapply ap_mono; [apply ap_add; [apply ap_add; [exact Ap|apply (keep j nh (nh + 37)); [exact Ah|lra|lra|lra]|lra]|apply (keep j nd (nd + 37)); [exact Ad|lra|lra|lra]|lra]|lra].
Qed.
Section Rule.
Variables (r : float) (qr : Qc).
Hypothesis Ar : ap 12 r (real (qr * Q2Qc (1 # 2))).
Hypothesis Pr : 0 <= R_of r.
Lemma qhalf (q : Qc) j : real (kj j * (q * Q2Qc (1 # 2))) + real (kj j * (q * Q2Qc (1 # 2))) = real (kj j * q).
Proof. reals. rewrite real_rat. field. Qed.
Lemma rule_ap j : 80 <= N -> ap 75 (mulj j r + mulj j r)%float (real (kj j * qr)).
Proof.
  intros L. pose proof (keep j 12 37 r _ Ar ltac:(lra) ltac:(lra) ltac:(lra)) as A. rewrite <- qhalf. eapply ap_mono; [apply ap_add; [exact A|exact A|lra]|lra].
Qed.
Lemma rule_gone j : 80 <= N -> fltb float64 f0 (mulj j r + mulj j r)%float && fltb float64 f0 (mulj j r) = false -> R_of (mulj j r + mulj j r)%float = 0.
Proof.
  intros L. pose proof (keep j 12 37 r _ Ar ltac:(lra) ltac:(lra) ltac:(lra)) as A. pose proof (mulj_nonneg j 12 r _ Ar ltac:(lra) Pr).
  apply invisible; try (eapply ap_fin; exact A); try assumption; [eapply ap_fin; now apply rule_ap|auto].
Qed.
Lemma below_rule j gs pre p m X : ap m p X -> m + 80 <= N -> ap (m + 76) (below (A := float64) gs pre (shr j (new_rule (fpinf float64) r r)) p) (X + real (kj j * qr)).
Proof.
  intros Ap L. pose proof (ap_ge _ _ _ _ _ Ap). pose proof (rule_ap j ltac:(lra)) as A. unfold new_rule. rewrite shr_rule. cbn [below]. unfold vvisible. cbn [t_height t_depth new_box shb b_height b_depth].
  cbn [fadd float64]. destruct (fltb float64 f0 (mulj j r + mulj j r)%float && fltb float64 f0 (mulj j r)) eqn:V.
  - eapply ap_mono; [apply ap_add; [exact Ap|exact A|lra]|lra].
  - apply rule_gone in V; [|lra]. eapply ap_mono; [eapply (ap_skip B N); [exact Ap|exact A|exact V]|lra].
Qed.
Lemma rule_drawn j bx gs x v pre X Y m m' nW W : ap m x X -> ap m' (vpos gs (v - b_height bx)%float pre) Y -> ap nW (b_width bx) (kr j * real W) ->
  m + nW + 10 <= N -> m' + 160 + no <= N ->
  drawn (kr j) (X + rox) (Y + kr j * real qr + roy) (Stroke W qr) (vdraw (A := float64) fox foy bx gs x v pre (shr j (new_rule (fpinf float64) r r))).
Proof.
  intros Ax Av AW L1 L2. pose proof (ap_ge _ _ _ _ _ Ax). pose proof (ap_ge _ _ _ _ _ Av). pose proof (ap_ge _ _ _ _ _ AW). pose proof (rule_ap j ltac:(lra)) as A.
  unfold new_rule. rewrite shr_rule. unfold vdraw. cbn [fsub float64]. unfold vvisible. cbn [t_height t_depth new_box shb b_height b_depth b_width PicApxSpec.drawn].
  cbn [fadd fsub float64]. destruct (fltb float64 f0 (mulj j r + mulj j r)%float && fltb float64 f0 (mulj j r)) eqn:V.
  - right. unfold rect, run. change (fpinf float64) with infinity. rewrite mulj_inf. change (finf float64 infinity) with true. cbv iota. cbn [fadd float64].
    pose proof (ap_add _ _ _ _ _ _ Ax AOX ltac:(lra)) as A1.
    assert (A2 : ap (m' + 75 + 1 + no + 1) (vpos gs (v - b_height bx) pre + (mulj j r + mulj j r) + foy)%float (Y + kr j * real qr + roy)).
    { eapply Apx.ap_val; [apply ap_add; [apply ap_add; [exact Av|exact A|lra]|exact AOY|lra]|reals; ring]. }
    eexists _, _, _, _. split; [reflexivity|]. split; [eapply ap_about; [exact A1|lra]|]. split; [eapply ap_about; [exact A2|lra]|].
    split; [eapply ap_about; [apply ap_add; [exact A1|exact AW|lra]|lra]|]. eapply ap_about; [eapply Apx.ap_val; [apply ap_add; [exact A2|exact A|lra]|reals; ring]|lra].
  - left. split; [reflexivity|]. apply rule_gone in V; [|lra]. destruct (ap_about _ _ _ A ltac:(lra)) as [_ H']. rewrite V, real_mult in H'.
    apply Rabs_le_inv in H'. lra.
Qed.
End Rule.
Lemma sub_drawn j bx gs x v pre X Y m m' b g l e_h nh f n : looks 1 (TL KHList b f0 g l) f n -> ap nh (b_height b) (real e_h) -> ap m x X -> ap m' (vpos gs (v - b_height bx)%float pre) Y ->
  m + n + 4 <= N -> m' + nh + 38 + n + 4 + no <= N -> 0 <= n ->
  drawn (kr j) (X + rox) (Y + kr j * real e_h + roy) f (vdraw (A := float64) fox foy bx gs x v pre (shr j (TL KHList b f0 g l))).
Proof.
  intros (_ & Lk) Ah Ax Av L1 L2 Pn. pose proof (ap_ge _ _ _ _ _ Ah). pose proof (ap_ge _ _ _ _ _ Av).
  specialize (Lk j (box_width (b_width bx) (shb j b)) (x + mulj j f0)%float (vpos gs (v - b_height bx) pre + mulj j (b_height b))%float X (Y + real (kj j * e_h)) m (m' + (nh + 37) + 1)).
  rewrite shr_tl in *. unfold vdraw. cbn [is_vlist t_height shb b_height]. cbn [fadd fsub float64].
  eapply drawn_eq; [apply Lk|reflexivity|reflexivity|reals; ring].
  - rewrite f0_is, mulj_0. now apply plus_0.
  - apply ap_add; [exact Av|apply (keep j nh (nh + 37)); [exact Ah|lra|lra|lra]|lra].
  - lra.
  - lra.
Qed.

(** ** Fractions *)
Lemma stack_box b1 g1 l1 b2 g2 l2 W nW rW hn dn hd dd nhn ndn nhd ndd (th r : float) qth qr st : b_width b1 = W -> b_width b2 = W -> ap nW W (real rW) ->
  ap nhn (b_height b1) (real hn) -> ap ndn (b_depth b1) (real dn) -> ap nhd (b_height b2) (real hd) -> ap ndd (b_depth b2) (real dd) ->
  ap 1 th (real qth) -> ap 1 r (real qr) -> nhn + ndn + nhd + 100 <= N ->
  natural_v (A := float64) [TL KHList b1 f0 g1 l1; vbox f0 (th * fofZ float64 2)%float; new_rule (fpinf float64) (frat 1 2 * r)%float (frat 1 2 * r)%float;
     vbox f0 (th * fofZ float64 2)%float; TL KHList b2 f0 g2 l2] st ->
  exists b gs, st = TL KVList b f0 gs [TL KHList b1 f0 g1 l1; vbox f0 (th * fofZ float64 2)%float; new_rule (fpinf float64) (frat 1 2 * r)%float (frat 1 2 * r)%float;
     vbox f0 (th * fofZ float64 2)%float; TL KHList b2 f0 g2 l2] /\ b_size b = 0%Z /\
    ap nW (b_width b) (real (qmax 0 rW)) /\ ap (nhn + ndn + nhd + 60) (b_height b) (real (hn + dn + (qth + qth) + qr + (qth + qth) + hd)).
Proof.
  intros W1 W2 WM H1 D1 H2 D2 Ath Ar L NV.
  pose proof (ap_ge _ _ _ _ _ WM). pose proof (ap_ge _ _ _ _ _ H1). pose proof (ap_ge _ _ _ _ _ D1). pose proof (ap_ge _ _ _ _ _ H2). pose proof (ap_ge _ _ _ _ _ D2).
  destruct (twice_ok B N B1 BM N1 NM NBIG _ _ Ath) as [T2 T2']. pose proof (half_ok B N B1 BM N1 NM NBIG _ _ Ar) as HR.
  unfold natural_v, list_of in NV. cbn [vpack vfold vpack_dims new_rule vbox b_width b_height b_depth new_box d_h d_d d_w dims0 d_stretch d_shrink] in NV.
  rewrite W1, W2 in NV. rewrite (ap_inf _ _ _ _ _ WM) in NV. change (finf float64 f0) with false in NV. change (finf float64 (fpinf float64)) with true in NV. cbv iota in NV.
  assert (LI : fltb float64 (fpinf float64) (b_depth b2) = false).
  { change (PrimFloat.ltb infinity (b_depth b2) = false). rewrite ltb_equiv. pose proof (ap_fin _ _ _ _ _ D2) as F. destruct (Prim2B (b_depth b2)); try discriminate F; try reflexivity; destruct s; reflexivity. }
  cbn [d_h d_d d_w] in NV. rewrite LI in NV.
  match type of NV with LOk ?x = LOk _ => assert (NV' : st = x) by (inversion NV; reflexivity) end. clear NV. subst st.
  do 2 eexists. split; [reflexivity|]. split; [reflexivity|]. cbn [b_width b_height].
  cbn [fadd fsub fmul fmax float64] in *. rewrite f0_is in *. split.
  - eapply ap_mono; [eapply Apx.ap_val; [apply (Apx.ap_max B N B1 N1); [apply ap_max; [apply ap_max; [apply ap_max; [exact ap_zero|exact WM]|exact ap_zero]|exact ap_zero]|exact WM]|]|].
    + reals. unfold Rmax. repeat destruct (Rle_dec _ _); lra.
    + unfold Rmax. destruct (Rle_dec _ _); lra.
  - eapply ap_mono; [eapply Apx.ap_val|].
    + apply zero_plus. apply ap_add; [|apply ap_add; [exact T2|exact H2|lra]|].
      * apply ap_add; [apply ap_add; [apply ap_add; [do 2 apply zero_plus; exact H1|apply plus_0; exact D1|lra]|apply ap_add; [exact T2|exact HR|lra]|lra]|apply plus_0; exact HR|lra].
      * lra.
    + reals. field.
    + lra.
Qed.

Lemma stack_looks b1 g1 l1 b2 g2 l2 W nW rW hn dn hd dd nhn ndn nhd ndd (th r : float) qth qr fn fd nL st : b_width b1 = W -> b_width b2 = W -> ap nW W (real rW) ->
  ap nhn (b_height b1) (real hn) -> ap ndn (b_depth b1) (real dn) -> ap nhd (b_height b2) (real hd) -> ap ndd (b_depth b2) (real dd) ->
  ap 1 th (real qth) -> ap 1 r (real qr) -> 0 <= R_of th -> 0 <= R_of r -> 300 <= N -> l1 <> [] ->
  nhn + ndn + nhd + 200 <= N -> looks 1 (TL KHList b1 f0 g1 l1) fn nL -> looks 1 (TL KHList b2 f0 g2 l2) fd nL -> 0 <= nL ->
  natural_v (A := float64) [TL KHList b1 f0 g1 l1; vbox f0 (th * fofZ float64 2)%float; new_rule (fpinf float64) (frat 1 2 * r)%float (frat 1 2 * r)%float;
     vbox f0 (th * fofZ float64 2)%float; TL KHList b2 f0 g2 l2] st ->
  forall sh, vlooks 1 (set_shift sh st)
    (Move 0 (- (hn + dn + (qth + qth) + qr + (qth + qth) + hd))
      (Join (Move 0 hn fn) (Join (Move 0 (hn + dn + (qth + qth) + qr) (Stroke (qmax 0 rW) qr)) (Move 0 (hn + dn + (qth + qth) + qr + (qth + qth) + hd) fd))))
    (2 * (nhn + ndn + nhd) + nW + nL + 500).
Proof.
  intros W1 W2 WM H1 D1 H2 D2 Ath Ar P1 P2 NB NE L Ln Ld PL NV sh.
  pose proof (ap_ge _ _ _ _ _ WM). pose proof (ap_ge _ _ _ _ _ H1). pose proof (ap_ge _ _ _ _ _ D1). pose proof (ap_ge _ _ _ _ _ H2). pose proof (ap_ge _ _ _ _ _ D2).
  destruct (stack_box _ _ _ _ _ _ W nW rW hn dn hd dd _ _ _ _ th r qth qr st W1 W2 WM H1 D1 H2 D2 Ath Ar ltac:(lra) NV) as (b & gs & -> & BS & AW & AH). clear NV. cbn [set_shift].
  destruct (twice_ok B N B1 BM N1 NM NBIG _ _ Ath) as [T2 _]. pose proof (half_ok B N B1 BM N1 NM NBIG _ _ Ar) as HR.
  assert (HR' : ap 12 (frat 1 2 * r)%float (real (qr * Q2Qc (1 # 2)))) by (eapply Apx.ap_val; [exact HR|reals; rewrite real_rat; field]). clear HR.
  assert (PT : 0 <= R_of (th * fofZ float64 2)%float).
  { destruct two_int as [F2 V2]. apply mul_nonneg; [eapply ap_fin; exact Ath|exact F2|eapply ap_fin; exact T2|exact P1|change (fofZ float64 2) with 2%float; rewrite V2; lra]. }
  assert (PR : 0 <= R_of (frat 1 2 * r)%float).
  { apply mul_nonneg; [vm_compute; reflexivity|eapply ap_fin; exact Ar|eapply ap_fin; exact HR'| |exact P2].
    change (@frat float64 1 2) with (1 / 2)%float. destruct one_int as [F1 V1], two_int as [F2 V2].
    destruct (div_rnd 1 2%float F1) as [_ DV]; [rewrite V2; lra|rewrite V1, V2; rewrite Rabs_pos_eq by lra; apply Rle_trans with 1; [lra|change 1 with (bpow radix2 0); apply bpow_le; lia]|].
    rewrite DV, V1, V2. apply rnd_pos. lra. }
  set (sp := vbox (A := float64) f0 (th * fofZ float64 2)%float) in *. set (ru := new_rule (A := float64) (fpinf float64) (frat 1 2 * r)%float (frat 1 2 * r)%float) in *.
  set (cn := TL KHList b1 f0 g1 l1) in *. set (cd := TL KHList b2 f0 g2 l2) in *.
  split.
  - apply young_list. split; [lia|]. assert (YS : young sp) by (split; [exact I|constructor; [cbn; lia|constructor]]). assert (YR : young ru) by (split; [exact I|constructor; [cbn; lia|constructor]]).
    constructor; [apply Ln|]. constructor; [exact YS|]. constructor; [exact YR|]. constructor; [exact YS|]. constructor; [apply Ld|constructor].
  - intros j x v X Y m m' HX HY L1 L2. pose proof (ap_ge _ _ _ _ _ HX). pose proof (ap_ge _ _ _ _ _ HY).
    rewrite shr_tl, draws_unfold. cbn [map t_box]. cbn [each app].
    set (bx := shb j b). set (g := shg j gs). set (HT := (hn + dn + (qth + qth) + qr + (qth + qth) + hd)%Qc) in *.
    assert (AW' : ap (nW + 37) (b_width bx) (kr j * real (qmax 0 rW))).
    { unfold bx, shb. cbn [b_width]. rewrite <- real_mult. apply (keep j nW); [exact AW|lra|lra|lra]. }
    set (top := (v - b_height bx)%float).
    assert (V0 : ap (m' + (nhn + ndn + nhd + 60) + 1) (vpos g top []) (Y - real (kj j * HT))).
    { unfold vpos. cbn [ShipSpec.after]. unfold top, bx, shb. cbn [b_height]. apply ap_sub; [exact HY|eapply (keep j); [exact AH|lra|lra|lra]|lra]. }
    assert (V1 : ap (m' + (nhn + ndn + nhd + 60) + 1 + nhn + ndn + 76) (vpos g top [shr j cn]) (Y - real (kj j * HT) + real (kj j * hn) + real (kj j * dn))).
    { change [shr j cn] with ([] ++ [shr j cn]). rewrite vpos_snoc. apply below_list; [exact NE|exact H1|exact D1|exact V0|lra]. }
    assert (V2 : ap (m' + (nhn + ndn + nhd + 60) + 1 + nhn + ndn + 76 + 38) (vpos g top [shr j cn; shr j sp]) (Y - real (kj j * HT) + real (kj j * hn) + real (kj j * dn) + real (kj j * (qth + qth)))).
    { change [shr j cn; shr j sp] with ([shr j cn] ++ [shr j sp]). rewrite vpos_snoc. eapply below_box; [exact T2|lra|exact PT|exact V1|lra|lra]. }
    assert (V3 : ap (m' + (nhn + ndn + nhd + 60) + 1 + nhn + ndn + 76 + 38 + 76) (vpos g top [shr j cn; shr j sp; shr j ru])
      (Y - real (kj j * HT) + real (kj j * hn) + real (kj j * dn) + real (kj j * (qth + qth)) + real (kj j * qr))).
    { change [shr j cn; shr j sp; shr j ru] with ([shr j cn; shr j sp] ++ [shr j ru]). rewrite vpos_snoc. apply below_rule; [exact HR'|exact PR|exact V2|lra]. }
    assert (V4 : ap (m' + (nhn + ndn + nhd + 60) + 1 + nhn + ndn + 76 + 38 + 76 + 38) (vpos g top [shr j cn; shr j sp; shr j ru; shr j sp])
      (Y - real (kj j * HT) + real (kj j * hn) + real (kj j * dn) + real (kj j * (qth + qth)) + real (kj j * qr) + real (kj j * (qth + qth)))).
    { change [shr j cn; shr j sp; shr j ru; shr j sp] with ([shr j cn; shr j sp; shr j ru] ++ [shr j sp]). rewrite vpos_snoc. eapply below_box; [exact T2|lra|exact PT|exact V3|lra|lra]. }
    assert (NS : forall pre, vdraw (A := float64) fox foy bx g x v pre (shr j sp) = []) by (intros pre; unfold sp, vbox; rewrite shr_box; reflexivity).
    rewrite !NS. cbn [app]. rewrite app_nil_r. eapply drawn_move; [apply drawn_join; [|apply drawn_join]|reflexivity|reflexivity].
    + eapply drawn_move; [eapply (sub_drawn j bx g x v [] X _ m _ _ _ _ _ _ _ _ Ln H1 HX V0); lra| |]; reals; ring.
    + eapply drawn_move; [eapply (rule_drawn (frat 1 2 * r)%float qr HR' PR j bx g x v [shr j cn; shr j sp] X _ m _ _ _ HX V2 AW'); lra| |]; reals; ring.
    + eapply drawn_move; [eapply (sub_drawn j bx g x v [shr j cn; shr j sp; shr j ru; shr j sp] X _ m _ _ _ _ _ _ _ _ Ld H2 HX V4); lra| |]; unfold HT; reals; ring.
Qed.
Lemma vlooks_child b sh gs l f n n' ns qs : vlooks 1 (TL KVList b sh gs l) f n -> ap ns sh (real qs) -> 0 <= n -> n + ns + 40 <= n' ->
  forall j bx gs' x v pre X Y m m', ap m (hpos gs' x pre) X -> ap m' v Y -> m + n' + 4 <= N -> m' + n' + 4 + no <= N ->
  drawn (kr j) (X + rox) (Y + kr j * real qs + roy) f (hdraw (A := float64) fox foy bx gs' x v pre (shr j (TL KVList b sh gs l))).
Proof.
  intros (_ & D) As P L j bx gs' x v pre X Y m m' HX HY L1 L2. pose proof (ap_ge _ _ _ _ _ As). pose proof (ap_ge _ _ _ _ _ HX). pose proof (ap_ge _ _ _ _ _ HY).
  specialize (D j (hpos gs' x pre) (v + mulj j sh)%float X (Y + real (kj j * qs)) m (m' + (ns + 37) + 1) HX). rewrite shr_tl in *. unfold hdraw. cbn [is_vlist]. cbn [fadd float64].
  eapply drawn_eq; [apply D|reflexivity|reflexivity|reals; ring].
  - apply ap_add; [exact HY|apply (keep j ns (ns + 37)); [exact As|lra|lra|lra]|lra].
  - lra.
  - lra.
Qed.
Variable K : R.
Hypothesis K1 : 1 <= K.
Lemma stacked_hb num den n d n1 n2 (th r ax : float) (qth qr qax : Qc) t (s : S) : hb K num n n1 -> hb K den d n2 ->
  ap 1 th (real qth) -> ap 1 r (real qr) -> ap 5 ax (real qax) -> 0 <= R_of th -> 0 <= R_of r -> n1 + n1 + n2 + n2 + 400 <= N ->
  stacked (A := float64) num den th r ax t -> hb (K + 6) t (fraction M qth qr qax (fst n) (fst d), frac_figure qth qr qax n d) (n1 + n2 + 150).
Proof.
  intros Hn Hd Ath Ar Aax P1 P2 L ST. destruct n as [en fn], d as [ed fd]. pose proof Hn as [HXn _]. pose proof Hd as [HXd _]. cbn [fst snd] in *.
  pose proof (hx_ge _ _ _ _ _ HXn) as G1. pose proof (hx_ge _ _ _ _ _ HXd) as G2.
  pose proof (stacked_row be parse_float M size dpi fsize fdpi B N MB B1 BM N1 NM NBIG num den en ed n1 n2 th r ax qth qr qax t s HXn HXd Ath Ar Aax ltac:(lra) ST) as HX.
  split; [exact HX|]. cbn [snd].
  destruct ST as (cn & cd & stk & C1 & C2 & NV & NH).
  assert (Wn : ap n1 (t_width num) (real (x_w en))) by (destruct HXn as (? & ? & ? & ? & ? & -> & _ & _ & Q & _); exact Q).
  assert (Wd : ap n2 (t_width den) (real (x_w ed))) by (destruct HXd as (? & ? & ? & ? & ? & -> & _ & _ & Q & _); exact Q).
  pose proof (ap_max _ _ _ _ _ _ Wn Wd) as WM. rewrite <- real_max in WM.
  assert (MX : R_of (t_width num) <= R_of (Float64.max (t_width num) (t_width den)) /\ R_of (t_width den) <= R_of (Float64.max (t_width num) (t_width den))).
  { destruct (max_finite _ _ (ap_fin _ _ _ _ _ Wn) (ap_fin _ _ _ _ _ Wd)) as [_ V]. rewrite V. split; [apply Rmax_l|apply Rmax_r]. }
  change (fmax float64 (t_width num) (t_width den)) with (Float64.max (t_width num) (t_width den)) in *.
  set (W := Float64.max (t_width num) (t_width den)) in *. set (rW := qmax (x_w en) (x_w ed)) in *. clearbody W.
  destruct (centred_hb K W (n1 + n2) rW en fn n1 num cn K1 Hn C1 WM (proj1 MX) ltac:(lra)) as (b1 & g1 & l1 & nhn & ndn & -> & NE1 & BS1 & W1 & H1 & D1 & LL1 & Lk1).
  destruct (centred_hb K W (n1 + n2) rW ed fd n2 den cd K1 Hd C2 WM (proj2 MX) ltac:(lra)) as (b2 & g2 & l2 & nhd & ndd & -> & NE2 & BS2 & W2 & H2 & D2 & LL2 & Lk2).
  pose proof (ap_ge _ _ _ _ _ H1). pose proof (ap_ge _ _ _ _ _ D1). pose proof (ap_ge _ _ _ _ _ H2). pose proof (ap_ge _ _ _ _ _ D2).
  pose proof (Rmult_le_pos K n1 ltac:(lra) G1). pose proof (Rmult_le_pos K n2 ltac:(lra) G2).
  set (nL := 2 * (n1 + n2) + 60 + (K * n1 + K * n2)).
  apply (looks_more fdpi B N fox foy rox roy no 1 (Rle_refl 1) _ _ _ nL) in Lk1; [|unfold nL; lra]. apply (looks_more fdpi B N fox foy rox roy no 1 (Rle_refl 1) _ _ _ nL) in Lk2; [|unfold nL; lra].
  cbn [t_height] in NH. cbn [fsub fmul float64] in NH.
  set (sh := (b_height b2 - (ax - fofZ float64 3 * th))%float) in *. 
  assert (Ash : ap (n2 + 22) sh (real (x_h ed - (qax - (qth + qth + qth))))).
  { pose proof (thrice_ok B N B1 BM N1 NM NBIG _ _ Ath) as T3. unfold sh. eapply ap_mono; [eapply Apx.ap_val; [apply ap_sub; [exact H2|apply ap_sub; [exact Aax|exact T3|lra]|lra]|reals; ring]|lra]. }
  pose proof (stack_looks b1 g1 l1 b2 g2 l2 W (n1 + n2) rW _ _ _ _ _ _ _ _ th r qth qr _ _ nL stk W1 W2 WM H1 D1 H2 D2 Ath Ar P1 P2 ltac:(lra) NE1 ltac:(lra) Lk1 Lk2 ltac:(unfold nL; lra) NV sh) as VL.
  destruct (stack_box _ _ _ _ _ _ W (n1 + n2) rW _ _ _ _ _ _ _ _ th r qth qr stk W1 W2 WM H1 D1 H2 D2 Ath Ar ltac:(lra) NV) as (b & gs & -> & BS & _). cbn [set_shift] in *.
  assert (LV : 0 <= 2 * (nhn + ndn + nhd) + (n1 + n2) + nL + 500 /\ 2 * (nhn + ndn + nhd) + (n1 + n2) + nL + 500 + (n2 + 22) + 40 <= 6 * (n1 + n2) + 700 + (K * n1 + K * n2)) by (unfold nL; lra).
  pose proof (vlooks_child _ _ _ _ _ _ (6 * (n1 + n2) + 700 + (K * n1 + K * n2)) _ _ VL Ash (proj1 LV) (proj2 LV)) as CH.
  set (ll := [_; _; _; _; _]) in *. clearbody ll. clear NV.
  unfold natural_h in NH. rewrite NH in *. cbn [hpack list_of] in *. split.
  - apply young_list. cbn [b_size new_box]. split; [lia|]. constructor; [apply VL|]. constructor; [|constructor]. split; [exact I|constructor; [cbn; lia|constructor]].
  - intros j bx x v X Y m m' HX0 HY L1 L2. rewrite shr_tl, draws_unfold. cbn [map each app].
    match goal with |- context [hdraw _ _ _ ?g _ _] => set (gg := g) end.
    assert (LB : 6 * (n1 + n2) + 700 + (K * n1 + K * n2) <= (K + 6) * (n1 + n2 + 150)) by lra.
    specialize (CH j bx gg x v [] X Y m m' HX0 HY ltac:(lra) ltac:(lra)). unfold hbox. rewrite shr_box. cbn [hdraw app]. rewrite app_nil_r.
    unfold frac_figure. cbn [fst snd]. fold rW. set (fA := Slide _ fn) in *. set (fB := Slide _ fd) in *.
    destruct CH as (c1 & c2 & -> & D1' & c3 & c4 & -> & D2' & D3'). apply drawn_join; [|apply drawn_join].
    + eapply drawn_move; [exact D1'| |]; reals; ring.
    + eapply drawn_move; [exact D2'| |]; reals; ring.
    + eapply drawn_move; [exact D3'| |]; reals; ring.
Qed.
Lemma genfrac_hb sty num den n d n1 n2 typ r qr s t s' : hb K num n n1 -> hb K den d n2 -> reads B r qr -> 0 <= R_of r -> n1 + n1 + n2 + n2 + 500 <= N ->
  genfrac be "" "" r sty num den (SizeApx.at_font fdpi (SizeApx.fface fsize typ)) s = LOk (t, s') ->
  let sz b := match sty with DisplayStyle => b | TextStyle => small b end in
  hb (K + 6) t (fraction M (line M (face typ)) qr (axis M size) (fst (sz n)) (fst (sz d)), frac_figure (line M (face typ)) qr (axis M size) (sz n) (sz d)) (n1 + n2 + 194).
Proof.
  intros Hn Hd Rr R0 L E sz. pose proof (hb_ge _ _ _ _ _ _ _ _ _ _ _ _ Hn). pose proof (hb_ge _ _ _ _ _ _ _ _ _ _ _ _ Hd).
  pose proof (reads_ap B N B1 NBIG _ _ Rr) as Ar.
  apply (genfrac_ok be eq_refl) in E as (th' & s1 & num' & s2 & den' & s3 & me & bx & s4 & G1 & G2 & G3 & G4 & ST & E); [|apply not_negative; [apply Rr|exact R0]].
  pose proof (style_hb be fdpi B N fox foy rox roy no B1 BM N1 NM K K1 _ _ _ _ _ _ _ Hn ltac:(lra) G2) as Hn'.
  pose proof (style_hb be fdpi B N fox foy rox roy no B1 BM N1 NM K K1 _ _ _ _ _ _ _ Hd ltac:(lra) G3) as Hd'.
  destruct MB as (_ & _ & _ & MM & _ & ML & _). apply ML in G1 as (G1 & G1p & _); [|reflexivity]. cbn [st_font st_dpi SizeApx.at_font f_name f_type f_size SizeApx.fface] in *.
  destruct (MM "=" (SizeApx.fface fsize "it") _ _ _ _ eq_refl G4) as (_ & _ & _ & _ & _ & (tp & bt & E1 & E2 & E3)).
  assert (MID : ap 5 (middle me) (real (axis M size))).
  { unfold middle. unfold axis. change (face "it") with (mk_font (A := exact) (f_name (SizeApx.fface fsize "it")) (f_type (SizeApx.fface fsize "it")) (Fin size)). rewrite E3. unfold Qcdiv. rewrite real_mult, real_inv, !real_plus, !real_1 by discriminate.
    destruct (ofZ_exact 2 ltac:(reflexivity)) as [F2 V2]. eapply ap_mono; [apply (Apx.div_ap B N B1 BM N1 NM) with (n := 3) (k := (1 + 1)%R); [|lra|exact V2|lra]|lra].
    eapply ap_mono; [apply ap_add; [eapply reads_ap; [assumption..|exact E1]|eapply reads_ap; [assumption..|exact E2]|lra]|lra]. }
  destruct E as [-> _]. pose proof (stacked_hb _ _ _ _ _ _ _ _ _ _ _ _ _ s Hn' Hd' (reads_ap B N B1 NBIG _ _ G1) Ar MID G1p R0 ltac:(lra) ST) as HX.
  replace (n1 + n2 + 194) with (n1 + 22 + (n2 + 22) + 150) by ring. exact HX.
Qed.
End PicApx2.
