(** C86: the metrics of the TrueType backend in terms of the font's design units. *)
From Coq Require Import ZArith String Ascii List Bool Lia QArith Qcanon Qfield Field Lqa.
From Verif Require Import Utf8 Arith Exact OrderLaws Box Ttf TtfSpec TtfFacts TtfExact ExactFacts GeomFacts PropTtf.
From Coq Require Import Lqa.
Import ListNotations.
Local Open Scope string_scope.
Local Open Scope list_scope.
Local Open Scope Z_scope.

(** A length of [x] design units, [u] to the em, at [p] pixels (times 64) to the em,
    is [z], rounded to the nearest integer. *)
Definition nearest (z x p u : Z) : Prop := 2 * Z.abs (z * u - x * p) <= u.

(** A glyph as its designer drew it: the advance and the extents of the ink, in
    design units, y upwards. *)
Record design : Type := mk_design { ds_adv : Z; ds_xmin : Z; ds_xmax : Z; ds_ymin : Z; ds_ymax : Z }.
(** The font library scales the glyph [i] of the font [f] to any size up to
    384 pixels (times 64) to the unit. *)
Definition scales {A : arith} {Fnt} (sf : @sfnt A Fnt) (f : Fnt) (i : Z) (g : design) : Prop :=
  0 < sf_upem sf f /\
  forall p, 0 < p <= 384 * Z.max 2 (sf_upem sf f) ->
    (forall a, sf_advance sf f i p = Some a -> nearest a (ds_adv g) p (sf_upem sf f)) /\
    (forall x0 y0 x1 y1, sf_bounds sf f i p = Some (x0, y0, x1, y1) ->
       nearest x0 (ds_xmin g) p (sf_upem sf f) /\ nearest (- y0) (ds_ymax g) p (sf_upem sf f) /\
       nearest x1 (ds_xmax g) p (sf_upem sf f) /\ nearest (- y1) (ds_ymin g) p (sf_upem sf f)).

(** [x] is [k] design units at size [s], up to [e] sizes. *)
Definition about (x s : Qc) (k u : Z) (e : Q) : Prop :=
  (- (e * Qabs.Qabs (this s)) <= this x - this s * (inject_Z k / inject_Z u) <= e * Qabs.Qabs (this s))%Q.

(** ** Every glyph on the canvas comes from one computation *)
Section Inv.
Context {A : arith} {Fnt : Type}.
Variable sf : @sfnt A Fnt.
Variable fnts : @fonts Fnt.
Definition computed (v : @val A Fnt) : Prop := v = val0 \/ exists sym ft dpi m, glyph_val sf fnts sym ft dpi m = LOk v.
Definition good (s : @ttf A Fnt) : Prop :=
  (forall k v, In (k, v) (t_glyphs s) -> computed v) /\
  (forall x y g, In (GlyphOp x y g) (t_canvas s) -> exists v, computed v /\ g = glyph_of v).
Lemma get_info_good sym ft dpi m s : good s ->
  good (snd (get_info sf fnts sym ft dpi m s)) /\
  (forall v, fst (get_info sf fnts sym ft dpi m s) = LOk v -> computed v).
Proof.
  intros [G1 G2]. unfold get_info. destruct (find _ _) as [v|] eqn:E.
  - cbn [fst snd]. split; [split; assumption|]. intros v' [= <-]. destruct (find_in _ _ _ E) as (k' & I & _). exact (G1 _ _ I).
  - destruct (glyph_val sf fnts sym ft dpi m) as [v|e] eqn:GV; cbn [fst snd]; [|split; [split; assumption|discriminate]].
    assert (C : computed v) by (right; eauto 6). split.
    + split; cbn [t_glyphs t_canvas]; [|exact G2]. intros k v' [I|I]; [injection I as _ <-; exact C|exact (G1 _ _ I)].
    + intros v' H. cbn [find] in H. destruct (key_eqb _ _); [injection H as <-; exact C|]. rewrite E in H. injection H as <-. left. reflexivity.
Qed.
Lemma perform_good r s : good s -> good (snd (perform sf fnts r s)).
Proof.
  intros G. destruct r; cbn [perform amap drawn snd].
  - unfold metrics_of, cbind. destruct (get_info_good sym ft dpi math s G) as [G' _].
    destruct (get_info sf fnts sym ft dpi math s) as [[v|e] s1]; exact G'.
  - unfold kern. destruct (_ && _); [|exact G]. unfold cbind.
    destruct (get_info_good sym1 ft1 dpi true s G) as [G' _]. destruct (get_info sf fnts sym1 ft1 dpi true s) as [[v|e] s1]; [|exact G']. cbn [snd] in G'.
    destruct (get_info_good sym2 ft2 dpi true s1 G') as [G'' _]. destruct (get_info sf fnts sym2 ft2 dpi true s1) as [[v2|e] s2]; exact G''.
  - unfold render_glyph, cbind. destruct (get_info_good sym ft dpi true s G) as [[G1 G2] C].
    destruct (get_info sf fnts sym ft dpi true s) as [[v|e] s1]; [|split; assumption]. cbn [fst snd] in *. split; cbn [t_glyphs t_canvas]; [exact G1|].
    intros x0 y0 g I. unfold cnv_glyph in I. apply in_app_or in I as [I|[I|[]]]; [exact (G2 _ _ _ I)|].
    assert (E : g = glyph_of v) by (inversion I; reflexivity). exists v. auto.
  - cbn [render_rect_filled snd]. destruct G as [G1 G2]. split; cbn [t_glyphs t_canvas]; [exact G1|].
    intros x0 y0 g I. unfold cnv_rect in I. apply in_app_or in I as [I|[I|[]]]; [exact (G2 _ _ _ I)|discriminate I].
  - exact G.
  - exact G.
Qed.
Lemma after_good h : forall s, good s -> good (after sf fnts h s).
Proof. induction h as [|r h IH]; intros s G; cbn [after]; [exact G|]. apply IH. now apply perform_good. Qed.
Lemma fresh_good : good (new_ttf new_canvas).
Proof. split; intros * []. Qed.
End Inv.

(** ** C86 *)
Lemma this_zq k : (this (zq k) == inject_Z k)%Q. Proof. unfold zq, Q2Qc. cbn [this]. apply Qred_correct. Qed.
Lemma about_scaled (s : Qc) z x u : 0 < u -> nearest z x 768 u -> about (s * (zq z / (zq 12 * zq 64)))%Qc s x u (1 # 1536).
Proof.
  intros U N. unfold about.
  assert (E : (this (s * (zq z / (zq 12 * zq 64)))%Qc == this s * (inject_Z z / 768))%Q).
  { replace (zq 12 * zq 64)%Qc with (Q2Qc 768) by (apply Qc_is_canon; reflexivity).
    replace (zq z / Q2Qc 768)%Qc with (zq z * Q2Qc (1 # 768))%Qc by (unfold Qcdiv; f_equal; apply Qc_is_canon; reflexivity).
    rewrite !this_mult, this_zq. change (this (Q2Qc (1 # 768))) with (1 # 768)%Q. field. }
  rewrite E. clear E. set (q := this s).
  assert (D : (Qabs.Qabs (inject_Z z / 768 - inject_Z x / inject_Z u) <= 1 # 1536)%Q).
  { destruct u as [|u|u]; try lia. unfold nearest in N.
    assert (EQ : (inject_Z z / 768 - inject_Z x / inject_Z (Z.pos u) == inject_Z (z * Z.pos u - x * 768) * (1 # 768) * (1 # u))%Q).
    { assert (IU : (1 # u == / inject_Z (Z.pos u))%Q) by reflexivity. rewrite IU.
      unfold Z.sub. rewrite inject_Z_plus, inject_Z_opp, !inject_Z_mult. change (inject_Z 768) with 768%Q. field.
      unfold Qeq, inject_Z. cbn. lia. }
    rewrite EQ. unfold Qabs.Qabs, Qle, Qmult, inject_Z. cbn [Qnum Qden]. lia. }
  assert (M : (Qabs.Qabs (q * (inject_Z z / 768 - inject_Z x / inject_Z u)) <= (1 # 1536) * Qabs.Qabs q)%Q).
  { rewrite Qabs.Qabs_Qmult. rewrite (Qmult_comm (1 # 1536)). rewrite (Qmult_comm (Qabs.Qabs q)), (Qmult_comm (Qabs.Qabs q)).
    apply Qmult_le_compat_r; [exact D|apply Qabs.Qabs_nonneg]. }
  apply Qabs.Qabs_Qle_condition in M.
  assert (R : (q * (inject_Z z / 768) - q * (inject_Z x / inject_Z u) == q * (inject_Z z / 768 - inject_Z x / inject_Z u))%Q) by ring.
  rewrite R. exact M.
Qed.
Lemma advance_exact a x u : 0 < u -> nearest a x (384 * u) u -> a = 384 * x.
Proof. unfold nearest. intros U N. assert (Z.abs (a - 384 * x) * u < u) by (rewrite <- (Z.abs_eq u) at 1 by lia; rewrite <- Z.abs_mul; lia). nia. Qed.

(** Every glyph drawn, whatever was asked of the backend before: the advance is the
    designed one at 2048 design units to the em, the ink is the designed one at the
    font's own number of units to the em up to 1/1536 of the size; the only other
    shift is the glyph's own offset. *)
Theorem C86_units_exact : forall (Fnt : Type) (sf : @sfnt exact Fnt) fnts h x y g f s ds,
  In (GlyphOp x y g) (t_canvas (after sf fnts h (new_ttf new_canvas))) ->
  gl_font g = Some f -> gl_size g = Fin s -> scales sf f (gl_num g) ds ->
  let u := sf_upem sf f in
  m_adv (gl_met g) = Fin (s * Q2Qc (inject_Z (ds_adv ds) / 2048)) /\
  exists x0 x1 y0 y1,
    about x0 s (ds_xmin ds) u (1 # 1536) /\ about x1 s (ds_xmax ds) u (1 # 1536) /\
    about y0 s (ds_ymin ds) u (1 # 1536) /\ about y1 s (ds_ymax ds) u (1 # 1536) /\
    m_xmin (gl_met g) = Fin x0 /\ m_xmax (gl_met g) = Fin x1 /\
    m_width (gl_met g) = Fin (x1 - x0) /\ m_height (gl_met g) = Fin (y1 - y0) /\
    m_ymin (gl_met g) = fadd exact (Fin y0) (gl_off g) /\ m_ymax (gl_met g) = fadd exact (Fin y1) (gl_off g) /\
    (gl_ps g <> "Cmex10" -> gl_off g = Fin 0).
Proof.
  intros Fnt sf fnts h x y g f s ds I GF GS SC u.
  destruct (after_good sf fnts h _ (fresh_good sf fnts)) as [_ G]. destruct (G _ _ _ I) as (v & C & ->). clear G I h.
  unfold glyph_of in *. cbn [gl_font gl_size gl_num gl_met gl_off gl_ps] in *.
  destruct C as [->|(sym & [nm ty sz] & dpi & m & GV)]; [discriminate GF|].
  unfold glyph_val in GV. destruct (get_glyph _ _ _ _ _) as [[[f' rn] sl]|]; cbn [lbind] in GV; [|discriminate GV].
  destruct (sf_name sf f') as [ps|]; cbn [need lbind] in GV; [|discriminate GV].
  destruct (sf_index sf f' rn) as [i|]; cbn [need lbind] in GV; [|discriminate GV].
  destruct (sf_gname sf f' i) as [gn|]; cbn [need lbind] in GV; [|discriminate GV].
  destruct (sf_load sf f' i (fixed_I _)); cbn [need lbind] in GV; [|discriminate GV].
  destruct (sf_advance sf f' i _) as [adv|] eqn:EA; cbn [need lbind] in GV; [|discriminate GV].
  destruct (sf_load sf f' i (sf_upem sf f')); cbn [need lbind] in GV; [|discriminate GV].
  destruct (sf_bounds sf f' i _) as [[[[a0 b0] a1] b1]|] eqn:EB; cbn [need lbind] in GV; [|discriminate GV].
  cbn [f_size] in GV.
  match type of GV with LOk ?a = LOk v => assert (V : a = v) by congruence end. clear GV. subst v.
  cbn [v_font v_size v_met v_off v_ps v_glyph] in *. assert (f' = f) by congruence. subst f'. clear GF. subst sz.
  destruct SC as [U SC]. fold u in SC, U, EA.
  assert (QA : adv = 384 * ds_adv ds).
  { apply (advance_exact _ _ u U). refine (proj1 (SC (384 * u) _) adv _); [lia|]. rewrite <- EA. f_equal. unfold fixed_I. lia. }
  destruct (proj2 (SC 768 ltac:(lia)) _ _ _ _ EB) as (N1 & N2 & N3 & N4).
  assert (N12 : zq 12 <> 0%Qc) by (apply zq_nz; lia). assert (N64 : zq 64 <> 0%Qc) by (apply zq_nz; lia).
  split.
  - cbn [m_adv]. rewrite !ofZ_fin, (div_fin' _ 65536), mul_fin, (div_fin' _ 12) by lia. apply f_equal. subst adv.
    unfold Qcdiv. apply Qc_is_canon. rewrite !this_mult, this_zq. change (this (/ zq 65536)%Qc) with (1 # 65536)%Q. change (this (/ zq 12)%Qc) with (1 # 12)%Q.
    unfold Q2Qc. cbn [this]. rewrite Qred_correct, inject_Z_mult. change (inject_Z 384) with 384%Q. field.
  - exists (s * (zq a0 / (zq 12 * zq 64)))%Qc, (s * (zq a1 / (zq 12 * zq 64)))%Qc, (s * (zq (- b1) / (zq 12 * zq 64)))%Qc, (s * (zq (- b0) / (zq 12 * zq 64)))%Qc.
    assert (FE : forall z, fdiv exact (fmul exact (fdiv exact (Fin s) (fofZ exact 12)) (fofZ exact z)) (fofZ exact 64) = Fin (s * (zq z / (zq 12 * zq 64)))%Qc).
    { intros z. rewrite !ofZ_fin, (div_fin' _ 12), mul_fin, (div_fin' _ 64) by lia. apply f_equal. field. auto. }
    cbn [m_xmin m_xmax m_width m_height m_ymin m_ymax]. rewrite !FE. rewrite !sub_fin.
    do 4 (split; [apply about_scaled; assumption|]).
    do 6 (split; [reflexivity|]). intros NC. apply String.eqb_neq in NC. rewrite NC. reflexivity.
Qed.

(** So advances are the designed ones exactly for fonts with 2048 units to the em
    (Latin Modern has 1000). *)
Corollary C86_advance_iff : forall (Fnt : Type) (sf : @sfnt exact Fnt) fnts h x y g f s ds,
  In (GlyphOp x y g) (t_canvas (after sf fnts h (new_ttf new_canvas))) ->
  gl_font g = Some f -> gl_size g = Fin s -> scales sf f (gl_num g) ds ->
  s <> 0%Qc -> ds_adv ds <> 0 ->
  (m_adv (gl_met g) = Fin (s * Q2Qc (inject_Z (ds_adv ds) / inject_Z (sf_upem sf f))) <-> sf_upem sf f = 2048).
Proof.
  intros Fnt sf fnts h x y g f s ds I GF GS SC NS NA.
  destruct (C86_units_exact Fnt sf fnts h x y g f s ds I GF GS SC) as [EA _]. rewrite EA. destruct SC as [U _]. clear - U NS NA.
  split; [|intros ->; reflexivity]. intros H. apply fin_inj in H.
  assert (E : Q2Qc (inject_Z (ds_adv ds) / 2048) = Q2Qc (inject_Z (ds_adv ds) / inject_Z (sf_upem sf f))).
  { apply (f_equal (fun t => / s * t)%Qc) in H. rewrite !Qcmult_assoc, (Qcmult_comm (/ s) s), Qcmult_inv_r, !Qcmult_1_l in H by exact NS. exact H. }
  apply (f_equal this) in E. unfold Q2Qc in E. cbn [this] in E.
  assert (Q : (inject_Z (ds_adv ds) / 2048 == inject_Z (ds_adv ds) / inject_Z (sf_upem sf f))%Q).
  { rewrite <- (Qred_correct (inject_Z (ds_adv ds) / 2048)), E. apply Qred_correct. }
  destruct (sf_upem sf f) as [|u|u]; try lia. unfold Qeq, Qdiv, Qmult, Qinv, inject_Z in Q. cbn in Q. nia.
Qed.

(** ** A case *)
(** A font with 1000 units to the em: the glyph "a" (97) is 500 units wide, its ink
    goes from 50 to 450 and from -10 to 430. *)
Definition round_div (n u : Z) : Z := (2 * n + u) / (2 * u).
Definition thousand : @sfnt exact unit := {|
  sf_name := fun _ => Some "LMRoman"; sf_index := fun _ r => Some r; sf_gname := fun _ _ => Some "a";
  sf_upem := fun _ => 1000; sf_load := fun _ _ _ => true;
  sf_advance := fun _ _ p => Some (round_div (500 * p) 1000);
  sf_bounds := fun _ _ p => Some (round_div (50 * p) 1000, - round_div (430 * p) 1000, round_div (450 * p) 1000, - round_div (-10 * p) 1000);
  sf_kern := fun _ i j _ => if i =? j then KernIs 64 else KernNotFound; sf_xheight := fun _ _ _ => Some (-5); uni_L := fun _ => true |}.
Lemma round_div_nearest x p u : 0 < u -> nearest (round_div (x * p) u) x p u.
Proof.
  intros U. unfold nearest, round_div. pose proof (Z.mul_div_le (2 * (x * p) + u) (2 * u) ltac:(lia)).
  pose proof (Z.mul_succ_div_gt (2 * (x * p) + u) (2 * u) ltac:(lia)). set (z := _ / _) in *. clearbody z. nia.
Qed.
Example C86_case :
  scales thousand tt 97 (mk_design 500 50 450 (-10) 430) /\
  match t_canvas (after thousand toy_fonts [RGlyph (Fin 0) (Fin 0) (mk_font (A := exact) "default" "rm" (Fin (Q2Qc 10))) "a" (Fin (Q2Qc 72))] (new_ttf new_canvas)) with
  | [GlyphOp _ _ g] => gl_num g = 97 /\ gl_font g = Some tt /\ m_adv (gl_met g) = Fin (Q2Qc (5000 # 2048)) /\
      fround exact (fmul exact (fofZ exact 1000) (m_xmin (gl_met g))) = 495 /\ gl_off g = Fin 0
  | _ => False
  end.
Proof.
  split.
  - split; [reflexivity|]. intros p P. split.
    + intros a H. cbn [sf_advance thousand] in H. assert (a = round_div (500 * p) 1000) as -> by congruence. now apply round_div_nearest.
    + intros x0 y0 x1 y1 H. cbn [sf_bounds thousand] in H.
      assert (x0 = round_div (50 * p) 1000 /\ y0 = - round_div (430 * p) 1000 /\ x1 = round_div (450 * p) 1000 /\ y1 = - round_div (-10 * p) 1000)
        as (-> & -> & -> & ->) by (repeat split; congruence).
      rewrite !Z.opp_involutive. repeat split; now apply round_div_nearest.
  - vm_compute. repeat split; try reflexivity; f_equal; apply Qc_is_canon; reflexivity.
Qed.
Print Assumptions C86_units_exact.
Print Assumptions C86_advance_iff.
