(** C96 for TrueType fonts: Parse and Render write nothing to the log. *)
From Coq Require Import ZArith String List Bool Reals Lia Lra QArith Qcanon.
From Flocq Require Import Core.Core IEEE754.BinarySingleNaN IEEE754.PrimFloat.
From Verif Require Import Utf8 Token Ast Parser Arith Exact OrderLaws Box Warn Mtex MtexFacts PropCost Float64Facts PropError Apx TtfRound PropMtex PropPack
  Ttf TtfSpec TtfFacts PropTtf PropSizeTtf SizeSpec ApxSpec SizeTtfSpec Render PropRender PropApx LogSpec LogMtex LogFacts LogQuiet LogFloat LogRoot PropLog.
From Coq Require Import Floats Lra.
Import ListNotations.
Local Open Scope string_scope.
Local Open Scope list_scope.
Local Open Scope Z_scope.

(** ** Magnitudes *)
Section Magnitude.
Local Open Scope R_scope.
Definition mag (k : Z) (x : float) : Prop := finite x /\ Rabs (R_of x) <= bpow radix2 k.
Lemma rnd_bpow k z : (0 <= k)%Z -> Rabs z <= bpow radix2 k -> Rabs (rnd z) <= bpow radix2 k.
Proof.
  intros K H. apply abs_round_le_generic; [apply FLT_exp_valid; reflexivity|apply valid_rnd_N| |exact H].
  apply generic_format_bpow. unfold FLT_exp. lia.
Qed.
Lemma mag_range k z : (k <= 1001)%Z -> Rabs z <= bpow radix2 k -> Rabs z <= bpow radix2 1001.
Proof. intros K H. eapply Rle_trans; [exact H|]. apply bpow_le. exact K. Qed.
Lemma mag_le k k' x : mag k x -> (k <= k')%Z -> mag k' x.
Proof. intros [F H] L. split; [exact F|]. eapply Rle_trans; [exact H|]. now apply bpow_le. Qed.
Lemma mag_mul a b x y : mag a x -> mag b y -> (0 <= a + b <= 1001)%Z -> mag (a + b) (x * y)%float.
Proof.
  intros [Fx Bx] [Fy By] L. assert (K : Rabs (R_of x * R_of y) <= bpow radix2 (a + b)).
  { rewrite Rabs_mult, bpow_plus. apply Rmult_le_compat; try apply Rabs_pos; assumption. }
  destruct (mul_rnd x y Fx Fy (mag_range _ _ (proj2 L) K)) as [G E]. split; [exact G|]. rewrite E. now apply rnd_bpow.
Qed.
Lemma mag_div a x (c : Z) : mag a x -> (1 <= c <= 2 ^ 31)%Z -> (0 <= a <= 1001)%Z -> mag a (x / Float64.ofZ c)%float.
Proof.
  intros [Fx Bx] C L. pose proof (const_of c C) as V.
  assert (C1 : 1 <= IZR c) by (apply (IZR_le 1); lia).
  assert (K : Rabs (R_of x / R_of (Float64.ofZ c)) <= bpow radix2 a).
  { rewrite V. unfold Rdiv. rewrite Rabs_mult, (Rabs_right (/ IZR c)) by (apply Rle_ge, Rlt_le, Rinv_0_lt_compat; lra).
    pose proof (Rabs_pos (R_of x)). assert (/ IZR c <= 1) by (rewrite <- Rinv_1; apply Rinv_le_contravar; lra).
    apply Rle_trans with (Rabs (R_of x) * 1); [apply Rmult_le_compat_l; assumption|lra]. }
  destruct (div_rnd x (Float64.ofZ c) Fx ltac:(rewrite V; lra) (mag_range _ _ (proj2 L) K)) as [G E].
  split; [exact G|]. rewrite E. apply rnd_bpow; [lia|exact K].
Qed.
Lemma mag_add a x y : mag a x -> mag a y -> (0 <= a <= 1000)%Z -> mag (a + 1) (x + y)%float.
Proof.
  intros [Fx Bx] [Fy By] L. assert (K : Rabs (R_of x + R_of y) <= bpow radix2 (a + 1)).
  { rewrite bpow_plus. change (bpow radix2 1) with 2. eapply Rle_trans; [apply Rabs_triang|]. lra. }
  destruct (add_rnd x y Fx Fy (mag_range (a + 1) _ ltac:(lia) K)) as [G E]. split; [exact G|]. rewrite E. apply rnd_bpow; [lia|exact K].
Qed.
Lemma mag_sub a x y : mag a x -> mag a y -> (0 <= a <= 1000)%Z -> mag (a + 1) (x - y)%float.
Proof.
  intros X [Fy By] L. rewrite sub_opp. destruct (opp_R y Fy) as [F E]. apply mag_add; [exact X| |exact L]. split; [exact F|]. now rewrite E, Rabs_Ropp.
Qed.
Lemma mag_moderate k x : mag k x -> (k <= 450)%Z -> moderate x.
Proof. exact (mag_le k 450 x). Qed.
Lemma sixteenth : finite (@frat float64 1 16) /\ R_of (@frat float64 1 16) = / 16.
Proof.
  assert (E : exists H, Prim2B (@frat float64 1 16) = B754_finite false 4503599627370496 (-56) H) by (eexists; vm_compute; reflexivity).
  destruct E as (H & E). rewrite E. split; [reflexivity|]. cbn. unfold F2R. cbn. lra.
Qed.
Lemma mag_int n : (Z.abs n <= 2 ^ 31)%Z -> mag 31 (Float64.ofZ n).
Proof. intros H. destruct (int32 n H) as (F & V & L). split; [exact F|]. now rewrite V. Qed.
Lemma size_mag x : size_ok x -> mag 200 x.
Proof. intros [F [H K]]. split; [exact F|]. now rewrite Rabs_right by lra. Qed.
Lemma size_eq x y : size_ok x -> feqb float64 y x = true -> mag 200 y.
Proof.
  intros S E. apply size_mag in S. destruct S as [F B]. cbn [feqb float64] in E. rewrite eqb_equiv in E. apply beqb_fin in E as [(F1 & _ & V)|(F1 & V)].
  - split; [exact F1|]. now rewrite V.
  - exfalso. rewrite <- V in F. congruence.
Qed.
Lemma line_ok size dpi : size_ok size -> size_ok dpi ->
  mag 400 (underline (A := float64) (mk_font (A := float64) "" "" size) dpi) /\ 0 <= R_of (underline (A := float64) (mk_font (A := float64) "" "" size) dpi).
Proof.
  intros S D. pose proof (size_mag _ S) as MS. pose proof (size_mag _ D) as MD. destruct sixteenth as [F16 V16].
  unfold underline. cbn [f_size]. change (fmul float64) with PrimFloat.mul. change (fdiv float64) with PrimFloat.div. change (fofZ float64 72) with (Float64.ofZ 72).
  assert (M16 : mag 0 (@frat float64 1 16)) by (split; [exact F16|rewrite V16, Rabs_right by lra; change (bpow radix2 0) with 1; lra]).
  pose proof (mag_mul 0 200 _ _ M16 MS ltac:(lia)) as M1. pose proof (mag_mul (0 + 200) 200 _ _ M1 MD ltac:(lia)) as M2.
  split; [exact (mag_div 400 _ 72 M2 ltac:(lia) ltac:(lia))|].
  destruct S as [Fs [S0 _]], D as [Fd [D0 _]].
  assert (N : forall x y, mag 200 x -> mag 200 y -> 0 <= R_of x -> 0 <= R_of y -> 0 <= R_of (x * y)%float).
  { intros x y X Y X0 Y0. destruct X as [FX BX], Y as [FY BY]. assert (K : Rabs (R_of x * R_of y) <= bpow radix2 1001).
    { rewrite Rabs_mult. apply Rle_trans with (bpow radix2 200 * bpow radix2 200); [apply Rmult_le_compat; try apply Rabs_pos; assumption|]. rewrite <- bpow_plus. apply bpow_le. lia. }
    rewrite (proj2 (mul_rnd x y FX FY K)). apply rnd_pos, Rmult_le_pos; assumption. }
  assert (N1 : 0 <= R_of (frat (A := float64) 1 16 * size)%float) by (apply N; [eapply mag_le; [exact M16|lia]|exact MS|rewrite V16; lra|exact S0]).
  assert (N2 : 0 <= R_of (frat (A := float64) 1 16 * size * dpi)%float) by (apply N; [exact M1|exact MD|exact N1|exact D0]).
  pose proof (const_of 72 ltac:(lia)) as V. destruct M2 as [F2 B2].
  set (n := (frat (A := float64) 1 16 * size * dpi)%float) in *.
  assert (K : Rabs (R_of n / R_of (Float64.ofZ 72)) <= bpow radix2 1001).
  { rewrite V. unfold Rdiv. rewrite Rabs_mult, (Rabs_right (/ 72)) by lra. apply Rle_trans with (bpow radix2 (0 + 200 + 200)); [pose proof (Rabs_pos (R_of n)); lra|apply bpow_le; lia]. }
  rewrite (proj2 (div_rnd n (Float64.ofZ 72) F2 ltac:(rewrite V; lra) K)). apply rnd_pos. rewrite V. lra.
Qed.
(** The measurements of a glyph with 32-bit numbers. *)
Lemma met_mag adv x0 y0 x1 y1 cm sl size dpi (me := met_of (A := float64) adv x0 y0 x1 y1 cm sl size dpi) :
  mag 200 size -> mag 200 dpi -> (Z.abs adv <= 2 ^ 31)%Z -> (Z.abs x0 <= 2 ^ 31 /\ Z.abs y0 <= 2 ^ 31 /\ Z.abs x1 <= 2 ^ 31 /\ Z.abs y1 <= 2 ^ 31)%Z ->
  Forall (mag 450) [m_adv me; m_height me; m_width me; m_ymin me; m_ymax me; m_iceberg me].
Proof.
  intros S D A (X0 & Y0 & X1 & Y1). unfold me, met_of. cbn [m_adv m_height m_width m_ymin m_ymax m_iceberg].
  change (fmul float64) with PrimFloat.mul. change (fdiv float64) with PrimFloat.div. change (fadd float64) with PrimFloat.add. change (fsub float64) with PrimFloat.sub. change (fofZ float64) with Float64.ofZ.
  assert (SC : forall n, (Z.abs n <= 2 ^ 31)%Z -> mag 231 (size / Float64.ofZ 12 * Float64.ofZ n / Float64.ofZ 64)%float).
  { intros n N. apply mag_div; [|lia|lia]. change 231%Z with (200 + 31)%Z. apply mag_mul; [apply mag_div; [exact S|lia|lia]|now apply mag_int|lia]. }
  assert (AD : mag 231 (Float64.ofZ adv / Float64.ofZ 65536 * size / Float64.ofZ 12)%float).
  { apply mag_div; [|lia|lia]. change 231%Z with (31 + 200)%Z. apply mag_mul; [apply mag_div; [now apply mag_int|lia|lia]|exact S|lia]. }
  pose proof (SC x0 X0) as Q1. pose proof (SC x1 X1) as Q2. pose proof (SC (- y0)%Z ltac:(lia)) as Q3. pose proof (SC (- y1)%Z ltac:(lia)) as Q4.
  pose proof (mag_sub _ _ _ Q2 Q1 ltac:(lia)) as QW. pose proof (mag_sub _ _ _ Q3 Q4 ltac:(lia)) as QH.
  set (o := if cm then _ else _).
  assert (O : mag 401 o).
  { unfold o. destruct cm.
    - change 401%Z with (400 + 1)%Z. apply mag_add; [| |lia].
      + eapply mag_le; [apply mag_div; [exact QH|lia|lia]|lia].
      + apply mag_div; [|lia|lia]. change 400%Z with (200 + 200)%Z. apply mag_mul; [apply mag_div; [exact S|lia|lia]|exact D|lia].
    - split; [reflexivity|]. change (R_of f0) with (R_of (Float64.ofZ 0)). destruct (int32 0 ltac:(lia)) as (_ & V & _). rewrite V, Rabs_R0. apply bpow_ge_0. }
  pose proof (mag_add 401 _ _ (mag_le _ 401 _ Q3 ltac:(lia)) O ltac:(lia)) as P3. pose proof (mag_add 401 _ _ (mag_le _ 401 _ Q4 ltac:(lia)) O ltac:(lia)) as P4.
  repeat (apply Forall_cons; [eapply mag_le; [eassumption|lia]|]). apply Forall_nil.
Qed.
End Magnitude.

(** ** The cache *)
Section Cache.
Context {Fnt : Type}.
Variable sf : @sfnt float64 Fnt.
Variable fnts : @fonts Fnt.
Hypothesis I32 : int32_font sf.
(** Every entry is the glyph of its key, computed for one of the two modes. *)
Definition honest (s : @ttf float64 Fnt) : Prop :=
  forall k v, In (k, v) (t_glyphs s) -> exists m, glyph_val sf fnts (k_sym k) (k_font k) (k_dpi k) m = LOk v.
Lemma honest_new c : honest (new_ttf c).
Proof. intros k v []. Qed.
Lemma honest_info sym ft dpi m s : honest s -> honest (snd (get_info sf fnts sym ft dpi m s)).
Proof.
  intros H. unfold get_info. destruct (find _ _); [exact H|]. destruct (glyph_val sf fnts sym ft dpi m) eqn:E; [|exact H].
  cbn [snd]. intros k w [X|X]; [|exact (H k w X)]. assert (k = mk_key sym ft dpi /\ w = x) as [-> ->] by (split; congruence). now exists m.
Qed.
Lemma honest_perform r s : honest s -> honest (snd (perform sf fnts r s)).
Proof.
  intros H. destruct r; cbn [perform amap drawn snd]; try exact H.
  - unfold metrics_of. apply cbind_snd; [now apply honest_info|]. intros v s' E. change s' with (snd (LOk v, s')). rewrite <- E. cbn [cret snd]. now apply honest_info.
  - unfold kern. destruct (_ && _); [|exact H]. pose proof (honest_info sym1 ft1 dpi true s H) as G1.
    apply cbind_snd; [exact G1|]. intros v1 s1 E1. rewrite E1 in G1. cbn [snd] in G1. pose proof (honest_info sym2 ft2 dpi true s1 G1) as G2.
    apply cbind_snd; [exact G2|]. intros v2 s2 E2. rewrite E2 in G2. exact G2.
  - unfold render_glyph. pose proof (honest_info sym ft dpi true s H) as G1. apply cbind_snd; [exact G1|]. intros v1 s1 E1. rewrite E1 in G1. exact G1.
Qed.
Lemma honest_after h : forall s, honest s -> honest (after sf fnts h s).
Proof. induction h as [|r h IH]; intros s H; cbn; [exact H|]. apply IH. now apply honest_perform. Qed.
Lemma to_M_ok {X} (m : @call float64 Fnt X) s x s' : to_M m s = LOk (x, s') -> m s = (LOk x, s').
Proof. unfold to_M. destruct (m s) as [[y|e] s1]; [|discriminate]. intros E. congruence. Qed.
Lemma honest_keeps : keeps honest (ttf_backend sf fnts).
Proof.
  split; intros; intros s x s' H E; (split; [|exact I]).
  - apply to_M_ok in E. pose proof (honest_perform (RMetrics sym f d m) s H) as G. cbn [perform amap snd] in G. rewrite E in G. exact G.
  - apply to_M_ok in E. pose proof (honest_perform (RKern f a g b d) s H) as G. cbn [perform amap snd] in G. rewrite E in G. exact G.
  - cbn [ttf_backend be_underline] in E. unfold mret in E. assert (s = s') as <- by (inversion E; reflexivity). exact H.
  - apply to_M_ok in E. pose proof (honest_perform (RXHeight f d) s H) as G. cbn [perform amap snd] in G. rewrite E in G. exact G.
Qed.
Variables size dpi : float.
Hypothesis Hs : size_ok size.
Hypothesis Hd : size_ok dpi.
Lemma glyph_mag sym ft d m v : mag 200 (f_size ft) -> mag 200 d -> glyph_val sf fnts sym ft d m = LOk v ->
  Forall (mag 450) [m_adv (v_met v); m_height (v_met v); m_width (v_met v); m_ymin (v_met v); m_ymax (v_met v); m_iceberg (v_met v)].
Proof.
  intros S D E. destruct ft as [nm ty s]. cbn [f_size] in S. destruct (glyph_both sf fnts sym nm ty s d (Fin 0) (Fin 0) m)
    as [(e & E1 & _)|(f & i & w & w' & adv & x0 & y0 & x1 & y1 & cm & sl & p & p' & E1 & _ & _ & _ & _ & _ & EA & EB & EM & _)]; [congruence|].
  assert (w = v) by congruence. subst w. rewrite EM. destruct I32 as (A & B & _). apply met_mag; auto; [eapply A, EA|eapply B, EB].
Qed.
Lemma zero_mag : mag 450 (@f0 float64).
Proof. split; [reflexivity|]. destruct zero_fin as [_ V]. rewrite V, Rabs_R0. apply bpow_ge_0. Qed.
Lemma info_mag sym ft m s v s' : f_size ft = size -> honest s -> get_info sf fnts sym ft dpi m s = (LOk v, s') ->
  Forall (mag 450) [m_adv (v_met v); m_height (v_met v); m_width (v_met v); m_ymin (v_met v); m_ymax (v_met v); m_iceberg (v_met v)].
Proof.
  intros S H E. pose proof (honest_info sym ft dpi m s H) as H'. rewrite E in H'. cbn [snd] in H'.
  assert (C : find (mk_key sym ft dpi) (t_glyphs s') = Some v \/ v = val0).
  { unfold get_info in E. destruct (find (mk_key sym ft dpi) (t_glyphs s)) as [w|] eqn:Q; [left; congruence|].
    destruct (glyph_val sf fnts sym ft dpi m) as [w|]; [|discriminate E].
    remember ((mk_key sym ft dpi, w) :: t_glyphs s) as c eqn:EC. destruct (find (mk_key sym ft dpi) c) as [z|] eqn:Q2; [left|right]; inversion E; subst; cbn [t_glyphs]; auto. }
  destruct C as [C| ->].
  - apply find_in in C as (k & I & K). apply H' in I as (m' & G). unfold key_eqb, font_eqb in K. cbn [k_sym k_font k_dpi] in K.
    apply andb_true_iff in K as [K KD]. apply andb_true_iff in K as [_ K]. apply andb_true_iff in K as [_ KS]. rewrite S in KS.
    eapply glyph_mag; [| |exact G]; [apply (size_eq size)|apply (size_eq dpi)]; auto; apply (el_sym float64 float64_eq); assumption.
  - cbn [val0 v_met met0 m_adv m_height m_width m_ymin m_ymax m_iceberg]. repeat (apply Forall_cons; [exact zero_mag|]). apply Forall_nil.
Qed.
End Cache.

(** With TrueType fonts in float64: Parse writes nothing to the log, whatever was asked of
    the backend before, if the expression has no \binom and no \sqrt.  (The numbers in the
    fonts are 32-bit; the bound on the font's size, the resolution and the lengths is
    beyond any in use.) *)
Theorem C96_truetype : forall (Fnt : Type) U range (sf : @sfnt float64 Fnt) fnts parse_float x size dpi before c,
  int32_font sf -> size_ok size -> size_ok dpi -> (forall v y, parse_float v = Some y -> moderate y) -> zlen x <= 2 ^ 40 ->
  (forall l, parse_expr U x = Ok l -> Forall unresized l) ->
  snd (parse_log U range (ttf_backend sf fnts) parse_float x size dpi (after sf fnts before (new_ttf c))) = [].
Proof.
  intros * I32 Hs Hd N Z R. apply log_of. exists (honest sf fnts). split; [apply honest_after, honest_new|].
  intros l P. pose proof (parsed_cost _ _ _ P) as T. destruct (line_ok size dpi Hs Hd) as [LM LP].
  assert (M450 : forall y, mag 450 y -> P64 1 y) by (intros y Y; apply moderate_P; exact Y).
  assert (SP : forall y, size_ok y -> moderate y /\ fltb float64 y f0 = false).
  { intros y Y. split; [apply (mag_moderate 200); [now apply size_mag|lia]|]. destruct Y as [F [Y _]]. destruct zero_fin as [Fz Vz]. apply (le_R _ _ Fz F). now rewrite Vz. }
  eexists. eapply (typeset_P P64 LIM float_laws float64_order ltac:(unfold LIM; lia) range (ttf_backend sf fnts) (honest sf fnts) (honest_keeps sf fnts) parse_float x size dpi
    (fun f => f_size f = size) False (fun _ H => H)) with (line := fun f d => underline f d) (roots := False).
  - intros [].
  - intros sym f m s y s' G H E. apply to_M_ok in E. unfold metrics_of, cbind in E. destruct (get_info sf fnts sym f dpi m s) as [[v|e] s1] eqn:Q; [|discriminate E].
    assert (y = v_met v) as -> by (unfold cret in E; congruence). pose proof (info_mag sf fnts I32 size dpi Hs Hd _ _ _ _ _ _ G H Q) as A.
    inversion A as [|? ? A1 H1]; subst. inversion H1 as [|? ? A2 H2]; subst. inversion H2 as [|? ? A3 H3]; subst.
    inversion H3 as [|? ? A4 H4]; subst. inversion H4 as [|? ? A5 H5]; subst. inversion H5 as [|? ? A6 H6]; subst.
    refine (conj (M450 _ A1) (conj (M450 _ A3) (conj (M450 _ A6) (conj (M450 _ A2) (conj (M450 _ A5) (conj (M450 _ A4) _)))))).
    intros w y W. apply moderate_mul; [exact A1|eapply N, W].
  - intros f a g b s y s' _ _ _ E. apply to_M_ok in E. unfold kern in E. destruct (_ && _).
    + unfold cbind in E. destruct (get_info sf fnts a f dpi true s) as [[v1|e] s1]; [|discriminate E]. destruct (get_info sf fnts b g dpi true s1) as [[v2|e] s2]; [|discriminate E].
      unfold cret in E. destruct (v_font v1) as [ft|]; cbn [need lbind] in E; [|discriminate E]. destruct (sf_kern sf ft _ _ _) as [k| |] eqn:K; [| |discriminate E].
      * assert (y = (Float64.ofZ k / Float64.ofZ 64)%float) as -> by (inversion E; reflexivity). apply M450. eapply mag_le; [apply mag_div; [apply mag_int; eapply (proj2 (proj2 I32)), K|lia|lia]|lia].
      * assert (y = f0) as -> by (inversion E; reflexivity). apply M450, zero_mag.
    + unfold cret in E. assert (y = f0) as -> by (inversion E; reflexivity). apply M450, zero_mag.
  - intros f s y s' [_ F] _ E. cbn [ttf_backend be_underline] in E. unfold mret in E. assert (y = underline f dpi) as -> by (inversion E; reflexivity). split; [reflexivity|].
    assert (V : underline (A := float64) f dpi = underline (A := float64) (mk_font (A := float64) "" "" size) dpi) by (unfold underline; now rewrite F). rewrite V.
    split; [apply M450; eapply mag_le; [exact LM|lia]|]. destruct zero_fin as [Fz Vz]. apply (le_R _ _ Fz (proj1 LM)). now rewrite Vz.
  - destruct (SP _ Hs), (SP _ Hd). now apply moderate_size.
  - intros [].
  - eapply Forall_impl; [exact unresized_allowed|now apply R].
  - unfold LIM. lia.
Qed.
(** In particular the call of Parse in Render, at 72 dpi on a new backend. *)
Corollary C96_render : forall (Fnt : Type) U range (sf : @sfnt float64 Fnt) dflt parse_float x size fnts,
  int32_font sf -> size_ok size -> (forall v y, parse_float v = Some y -> moderate y) -> zlen x <= 2 ^ 40 ->
  (forall l, parse_expr U x = Ok l -> Forall unresized l) ->
  snd (parse_log U range (ttf_backend sf (chosen dflt fnts)) parse_float x size (fofZ float64 72) (new_ttf new_canvas)) = [].
Proof.
  intros * I32 Hs N Z R. apply (C96_truetype Fnt U range sf (chosen dflt fnts) parse_float x size _ [] new_canvas); auto.
  destruct (int32 72 ltac:(lia)) as (F & V & _). split; [exact F|]. change (fofZ float64 72) with (Float64.ofZ 72). rewrite V. split; [lra|]. 
  apply Rle_trans with (bpow radix2 7); [change (bpow radix2 7) with 128%R; lra|apply bpow_le; lia].
Qed.

(** ** Case *)
Example C96_truetype_case :
  snd (parse_log ascii_only id_range (ttf_backend tiles toy_fonts) two64 c92_expr 10%float 72%float (after tiles toy_fonts c92_before (new_ttf new_canvas))) = [] /\
  c92_dims = Some (41.0322265625, 0x1.2cd5555555556p+3, 0x1.4d55555555555p+2)%float.
Proof.
  destruct C92_case as (P & UR & _ & _ & _ & D & _). split; [|exact D].
  assert (K : forall z, (0 <= z <= 100)%Z -> size_ok (Float64.ofZ z)).
  { intros z Z. destruct (int32 z ltac:(lia)) as (F & V & _). split; [exact F|]. rewrite V. split; [apply (IZR_le 0); lia|].
    apply Rle_trans with (IZR 128); [apply IZR_le; lia|]. change 128%R with (bpow radix2 7). apply bpow_le. lia. }
  apply C96_truetype.
  - exact tiles_int32.
  - exact (K 10 ltac:(lia)).
  - exact (K 72 ltac:(lia)).
  - intros v y E. unfold two64 in E. destruct (String.eqb v "2"); [|discriminate E]. assert (y = 2%float) as -> by congruence. apply (const_moderate 2). reflexivity.
  - vm_compute. discriminate.
  - intros l E. rewrite P in E. assert (l = c92_tree) as -> by congruence. exact UR.
Qed.
