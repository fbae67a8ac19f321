(** C48-C50, C53-C55: the canvas and the TrueType backend. *)
From Coq Require Import ZArith String Ascii List Bool Lia QArith Qcanon Lqa Floats.
From Verif Require Import Utf8 Utf8Facts Parser Symbols Arith Exact OrderLaws Box ExactFacts Ttf TtfSpec TtfFacts TtfExact.
Import ListNotations.
Local Open Scope string_scope.
Local Open Scope list_scope.
Local Open Scope Z_scope.

(** ** C48: the canvas *)

(** Calls on a canvas. *)
Inductive cnv_call (A : arith) (Fnt : Type) : Type :=
  | CallGlyph (x y : Arith.F A) (g : @glyph A Fnt)
  | CallRect (x1 y1 x2 y2 : Arith.F A).
Arguments CallGlyph {A Fnt}. Arguments CallRect {A Fnt}.
Definition cnv_do {A Fnt} (k : cnv_call A Fnt) (c : @canvas A Fnt) : @canvas A Fnt :=
  match k with CallGlyph x y g => cnv_glyph x y g c | CallRect x1 y1 x2 y2 => cnv_rect x1 y1 x2 y2 c end.
Fixpoint cnv_run {A Fnt} (ks : list (cnv_call A Fnt)) (c : @canvas A Fnt) : @canvas A Fnt :=
  match ks with [] => c | k :: ks' => cnv_run ks' (cnv_do k c) end.
Definition records {A Fnt} (k : cnv_call A Fnt) (o : @op A Fnt) : Prop :=
  match k with CallGlyph x y g => o = GlyphOp x y g | CallRect x1 y1 x2 y2 => o = RectOp x1 y1 x2 y2 end.

Theorem C48_canvas_log : forall (A : arith) (Fnt : Type) (ks : list (cnv_call A Fnt)),
  Forall2 records ks (cnv_ops (cnv_run ks new_canvas)).
Proof.
  assert (G : forall (A : arith) (Fnt : Type) (ks : list (cnv_call A Fnt)) c,
    exists l, cnv_run ks c = c ++ l /\ Forall2 records ks l).
  { induction ks as [|k ks IH]; intros c; cbn; [exists []; now rewrite app_nil_r|].
    destruct (IH (cnv_do k c)) as (l & -> & H). destruct k; cbn [cnv_do].
    - unfold cnv_glyph. rewrite <- app_assoc. eexists. split; [reflexivity|]. constructor; [reflexivity|exact H].
    - unfold cnv_rect. rewrite <- app_assoc. eexists. split; [reflexivity|]. constructor; [reflexivity|exact H]. }
  intros. destruct (G A Fnt ks new_canvas) as (l & E & H). unfold cnv_ops. now rewrite E.
Qed.

(** Through the backend: whatever is asked, the canvas receives one operation per
    drawing call that returns, in order, at the given place; operations already
    there stay. *)
Inductive shows {A Fnt} : @request A -> @op A Fnt -> Prop :=
  | sh_glyph x y ft sym dpi g : shows (RGlyph x y ft sym dpi) (GlyphOp x y g)
  | sh_rect x1 y1 x2 y2 : shows (RRect x1 y1 x2 y2) (RectOp x1 y1 x2 y2).
Definition is_draw {A} (r : @request A) : bool :=
  match r with RGlyph _ _ _ _ _ | RRect _ _ _ _ => true | _ => false end.
(** The drawing calls of a history that return. *)
Fixpoint done {A Fnt} (sf : @sfnt A Fnt) fnts (h : list (@request A)) (s : @ttf A Fnt) : list (@request A) :=
  match h with
  | [] => []
  | r :: h' =>
    (match is_draw r, fst (perform sf fnts r s) with true, LOk _ => [r] | _, _ => [] end) ++ done sf fnts h' (snd (perform sf fnts r s))
  end.

Theorem C48_backend_log : forall (A : arith) (Fnt : Type) (sf : @sfnt A Fnt) fnts h s,
  exists l, t_canvas (after sf fnts h s) = t_canvas s ++ l /\ Forall2 shows (done sf fnts h s) l.
Proof.
  intros A Fnt sf fnts. induction h as [|r h IH]; intros s; cbn [after done]; [exists []; now rewrite app_nil_r|].
  destruct (IH (snd (perform sf fnts r s))) as (l & -> & H).
  assert (K : exists o, t_canvas (snd (perform sf fnts r s)) = t_canvas s ++ o /\
    Forall2 shows (match is_draw r, fst (perform sf fnts r s) with true, LOk _ => [r] | _, _ => [] end) o).
  { destruct r; cbn [is_draw perform amap drawn fst snd].
    - exists []. rewrite app_nil_r. split; [|constructor]. unfold metrics_of.
      pose proof (get_info_canvas sf fnts sym ft dpi math s) as C. unfold cbind.
      destruct (get_info sf fnts sym ft dpi math s) as [[v|e] s']; exact C.
    - exists []. rewrite app_nil_r. split; [|constructor]. unfold kern. destruct (_ && _); [|reflexivity].
      pose proof (get_info_canvas sf fnts sym1 ft1 dpi true s) as C. unfold cbind.
      destruct (get_info sf fnts sym1 ft1 dpi true s) as [[v|e] s']; [|exact C]. cbn [snd] in C.
      pose proof (get_info_canvas sf fnts sym2 ft2 dpi true s') as C2.
      destruct (get_info sf fnts sym2 ft2 dpi true s') as [[v2|e] s2]; cbn [snd cret] in *; congruence.
    - unfold render_glyph, cbind.
      pose proof (get_info_canvas sf fnts sym ft dpi true s) as C.
      destruct (get_info sf fnts sym ft dpi true s) as [[v|e] s']; cbn [fst snd] in *.
      + exists [GlyphOp x y (glyph_of v)]. cbn [t_canvas]. unfold cnv_glyph. rewrite C. split; [reflexivity|].
        repeat constructor.
      + exists []. rewrite app_nil_r. split; [exact C|constructor].
    - exists [RectOp x1 y1 x2 y2]. split; [reflexivity|]. repeat constructor.
    - exists []. rewrite app_nil_r. split; [reflexivity|constructor].
    - exists []. rewrite app_nil_r. split; [reflexivity|constructor]. }
  destruct K as (o & -> & Ho). exists (o ++ l). rewrite app_assoc. split; [reflexivity|]. apply Forall2_app; [exact Ho|exact H].
Qed.

(** ** An example font library: one font; every glyph has number = rune, is as wide
    as its number, and stands on the baseline. *)
Definition toy (A : arith) : @sfnt A unit := {|
  sf_name := fun _ => Some "Toy"; sf_index := fun _ r => Some r; sf_gname := fun _ _ => Some "g";
  sf_upem := fun _ => 1000; sf_load := fun _ _ _ => true;
  sf_advance := fun _ i p => Some (i * p); sf_bounds := fun _ i p => Some (0, - p, i * p, 0);
  sf_kern := fun _ i j _ => if i =? j then KernIs 64 else KernNotFound;
  sf_xheight := fun _ _ _ => Some (-320);
  uni_L := fun r => (65 <=? r) && (r <=? 122) |}.
Definition toy_fonts : @fonts unit := mk_fonts (Some tt) (Some tt) (Some tt) (Some tt) (Some tt).
Definition rm10 : @font exact := mk_font "default" "rm" (Fin (Q2Qc 10)).
Definition dpi72 : Arith.F exact := Fin (Q2Qc 72).

Example C48_case :
  exists g, t_canvas (after (toy exact) toy_fonts
    [RMetrics "a" rm10 dpi72 true; RGlyph dpi72 dpi72 rm10 "a" dpi72; RGlyph dpi72 dpi72 rm10 "\nosuch" dpi72; RRect dpi72 dpi72 dpi72 dpi72]
    (new_ttf new_canvas)) = [GlyphOp dpi72 dpi72 g; RectOp dpi72 dpi72 dpi72 dpi72].
Proof. eexists. vm_compute. reflexivity. Qed.

(** ** C49: answers do not depend on the history *)
Theorem C49_history_independent_generic : forall (A : arith), eq_laws A ->
  forall (Fnt : Type) (sf : @sfnt A Fnt) fnts h r c c',
  (forall r1 r2 q1 q2, In r1 (r :: h) -> In r2 (r :: h) -> In q1 (needs r1) -> In q2 (needs r2) ->
     key_eqb (fst q1) (fst q2) = true -> agree q1 q2) ->
  fst (perform sf fnts r (after sf fnts h (new_ttf c))) = fst (perform sf fnts r (new_ttf c')).
Proof.
  intros A EL Fnt sf fnts h r c c' AG.
  assert (N : forall c0 h0, from sf fnts h0 (@new_ttf A Fnt c0)) by (intros c0 h0 kv I; destruct I).
  rewrite (perform_fresh sf fnts (r :: h) r _ AG); [| |now left].
  - rewrite (perform_fresh sf fnts (r :: h) r (new_ttf c') AG); [reflexivity|apply N|now left].
  - apply after_from; [intros; now right|apply N].
Qed.
Theorem C49_history_independent : forall (Fnt : Type) (sf : @sfnt float64 Fnt) fnts h r c c',
  (forall r1 r2 q1 q2, In r1 (r :: h) -> In r2 (r :: h) -> In q1 (needs r1) -> In q2 (needs r2) ->
     key_eqb (fst q1) (fst q2) = true -> agree q1 q2) ->
  fst (perform sf fnts r (after sf fnts h (new_ttf c))) = fst (perform sf fnts r (new_ttf c')).
Proof. exact (C49_history_independent_generic float64 float64_eq). Qed.

(** Without that condition the first use wins: once Metrics has answered for a
    symbol, font and resolution, every later answer for them is the same, whatever
    the math flag. *)
Lemma perform_ext {A : arith} (EL : eq_laws A) {Fnt} (sf : @sfnt A Fnt) fnts r s : ext s (snd (perform sf fnts r s)).
Proof.
  destruct r; cbn [perform amap drawn snd].
  - unfold metrics_of. pose proof (get_info_ext EL sf fnts sym ft dpi math s) as E. unfold cbind.
    destruct (get_info sf fnts sym ft dpi math s) as [[v|e] s']; exact E.
  - unfold kern. destruct (_ && _); [|apply ext_refl]. unfold cbind.
    pose proof (get_info_ext EL sf fnts sym1 ft1 dpi true s) as E1.
    destruct (get_info sf fnts sym1 ft1 dpi true s) as [[v|e] s']; [|exact E1]. cbn [snd] in E1.
    pose proof (get_info_ext EL sf fnts sym2 ft2 dpi true s') as E2.
    destruct (get_info sf fnts sym2 ft2 dpi true s') as [[v2|e] s2]; eapply ext_trans; eassumption.
  - unfold render_glyph, cbind. pose proof (get_info_ext EL sf fnts sym ft dpi true s) as E.
    destruct (get_info sf fnts sym ft dpi true s) as [[v|e] s']; exact E.
  - intros k v H; exact H.
  - apply ext_refl.
  - apply ext_refl.
Qed.
Lemma after_ext {A : arith} (EL : eq_laws A) {Fnt} (sf : @sfnt A Fnt) fnts h : forall s, ext s (after sf fnts h s).
Proof.
  induction h as [|r h IH]; intros s; cbn [after]; [apply ext_refl|].
  eapply ext_trans; [apply (perform_ext EL)|apply IH].
Qed.

Theorem C49_first_wins : forall (Fnt : Type) (sf : @sfnt float64 Fnt) fnts s sym ft dpi m1 me s1,
  PrimFloat.eqb (f_size ft) (f_size ft) = true -> PrimFloat.eqb dpi dpi = true ->   (* not NaN *)
  metrics_of sf fnts sym ft dpi m1 s = (LOk me, s1) ->
  forall h m2, fst (metrics_of sf fnts sym ft dpi m2 (after sf fnts h s1)) = LOk me.
Proof.
  intros Fnt sf fnts s sym ft dpi m1 me s1 NS ND H h m2.
  assert (R : key_eqb (A:=float64) (mk_key sym ft dpi) (mk_key sym ft dpi) = true).
  { unfold key_eqb, font_eqb. cbn [k_sym k_font k_dpi]. rewrite !String.eqb_refl.
    change (feqb float64) with PrimFloat.eqb. now rewrite NS, ND. }
  assert (K : exists v, find (mk_key sym ft dpi) (t_glyphs s1) = Some v /\ v_met v = me).
  { unfold metrics_of, cbind, get_info in H.
    destruct (find (mk_key sym ft dpi) (t_glyphs s)) as [v|] eqn:E.
    - cbn in H. injection H as Hm Hs. subst. eauto.
    - destruct (glyph_val sf fnts sym ft dpi m1) as [v|e]; [|discriminate H].
      cbn [find] in H. rewrite R in H. unfold cret in H.
      assert (Hm : v_met v = me) by (apply (f_equal fst) in H; cbn [fst] in H; congruence).
      apply (f_equal snd) in H. cbn [snd] in H. subst s1. cbn [t_glyphs find]. rewrite R. eauto. }
  destruct K as (v & E & Em). apply (after_ext float64_eq sf fnts h) in E.
  unfold metrics_of, cbind, get_info. rewrite E. cbn. now rewrite Em.
Qed.

(** So the answers do depend on the history in general: a hyphen asked for in text
    mode first is still a hyphen in math mode, where it should be a minus sign. *)
Example C49_flag_matters : exists m1 m2,
  fst (perform (toy exact) toy_fonts (RMetrics "-" rm10 dpi72 true) (new_ttf new_canvas)) = LOk (AMetrics m1) /\
  fst (perform (toy exact) toy_fonts (RMetrics "-" rm10 dpi72 true)
        (after (toy exact) toy_fonts [RMetrics "-" rm10 dpi72 false] (new_ttf new_canvas))) = LOk (AMetrics m2) /\
  m_width m1 <> m_width m2.
Proof. do 2 eexists. split; [vm_compute; reflexivity|]. split; [vm_compute; reflexivity|]. cbn. intros H. discriminate H. Qed.
(** A history that meets the condition, with a panic in it. *)
Example C49_case :
  let h := [RMetrics "a" rm10 dpi72 false; RKern rm10 "a" rm10 "b" dpi72; RMetrics "\nosuch" rm10 dpi72 true; RMetrics "-" rm10 dpi72 false] in
  let r := RGlyph dpi72 dpi72 rm10 "a" dpi72 in
  forall r1 r2 q1 q2, In r1 (r :: h) -> In r2 (r :: h) -> In q1 (needs r1) -> In q2 (needs r2) ->
     key_eqb (fst q1) (fst q2) = true -> agree q1 q2.
Proof.
  cbn [needs In]. intros r1 r2 q1 q2 H1 H2.
  repeat (destruct H1 as [<-|H1]; [|]); try contradiction; repeat (destruct H2 as [<-|H2]; [|]); try contradiction;
    cbn [needs In]; intros I1 I2; repeat (destruct I1 as [<-|I1]; [|]); try contradiction;
    repeat (destruct I2 as [<-|I2]; [|]); try contradiction; cbn; intros E; try discriminate E;
    (split; [reflexivity|]); (left; reflexivity) || (right; eexists; split; [reflexivity|]; split; [reflexivity|discriminate]).
Qed.

(** ** C50: metrics *)
(** What is in the cache after a history in which all sizes are finite. *)
Definition consistent (me : @metrics exact) : Prop :=
  m_width me = fsub exact (m_xmax me) (m_xmin me) /\ m_iceberg me = m_ymax me /\
  m_height me = fsub exact (m_ymax me) (m_ymin me).
Lemma nums_consistent n s d : consistent (nums_metrics n s d).
Proof.
  unfold consistent, nums_metrics. cbn [m_width m_xmax m_xmin m_iceberg m_ymax m_height m_ymin].
  rewrite !sub_fin. repeat split; apply f_equal; ring.
Qed.

Theorem C50_consistent_exact : forall (Fnt : Type) (sf : @sfnt exact Fnt) fnts h sym ft dpi m c me,
  fin (f_size ft) -> fin dpi ->
  fst (perform sf fnts (RMetrics sym ft dpi m) (after sf fnts h (new_ttf c))) = LOk (AMetrics me) ->
  m_width me = fsub exact (m_xmax me) (m_xmin me) /\
  m_iceberg me = m_ymax me /\
  m_height me = fsub exact (m_ymax me) (m_ymin me).
Proof.
  intros Fnt sf fnts h sym ft dpi m c me (s & Hs) (d & ->) H. change (consistent me).
  assert (FH : from sf fnts h (after sf fnts h (new_ttf c))).
  { apply after_from; [auto|]. intros kv I; destruct I. }
  destruct ft as [nm ty z]. cbn [f_size] in Hs. subst z.
  cbn [perform amap fst] in H. unfold metrics_of, cbind, get_info in H.
  destruct (find _ _) as [v|] eqn:E.
  - cbn [fst cret] in H. injection H as <-.
    destruct (find_in _ _ _ E) as (k' & I & EK). apply key_eq_exact in EK. subst k'.
    destruct (FH _ I) as (r & [k0 m0] & _ & _ & E1 & E2). cbn [fst snd] in E1, E2. subst k0. cbn [k_sym k_font k_dpi] in E2.
    destruct (glyph_val_nums sf fnts sym nm ty m0) as [(n & f & ps & name & rn & idx & off & G)|(e & G)]; rewrite G in E2;
      [|discriminate E2].
    injection E2 as <-. apply nums_consistent.
  - destruct (glyph_val_nums sf fnts sym nm ty m) as [(n & f & ps & name & rn & idx & off & G)|(e & G)]; rewrite G in H;
      [|discriminate H].
    cbn [find] in H.
    assert (R : key_eqb (A:=exact) (mk_key sym (mk_font nm ty (Fin s)) (Fin d)) (mk_key sym (mk_font nm ty (Fin s)) (Fin d)) = true).
    { unfold key_eqb, font_eqb. cbn. rewrite !String.eqb_refl, !qeqb_refl. reflexivity. }
    rewrite R in H. cbn [fst cret] in H. injection H as <-. apply nums_consistent.
Qed.

(** The same for the numbers that are copied or subtracted directly, bit for bit. *)
Theorem C50_consistent_float : forall (Fnt : Type) (sf : @sfnt float64 Fnt) fnts h sym ft dpi m c me,
  fst (perform sf fnts (RMetrics sym ft dpi m) (after sf fnts h (new_ttf c))) = LOk (AMetrics me) ->
  m_width me = fsub float64 (m_xmax me) (m_xmin me) /\ m_iceberg me = m_ymax me.
Proof.
  intros Fnt sf fnts h sym ft dpi m c me H.
  assert (FH : from sf fnts h (after sf fnts h (new_ttf c))).
  { apply after_from; [auto|]. intros kv I; destruct I. }
  set (P := fun me : @metrics float64 => m_width me = fsub float64 (m_xmax me) (m_xmin me) /\ m_iceberg me = m_ymax me).
  change (P me).
  assert (GV : forall sym ft dpi m v, glyph_val sf fnts sym ft dpi m = LOk v -> P (v_met v)).
  { intros sy f dp mm v G. unfold glyph_val in G.
    destruct (get_glyph _ _ _ _ _) as [[[fo rn] sl]|]; cbn [lbind] in G; [|discriminate G].
    destruct (sf_name sf fo); cbn [need lbind] in G; [|discriminate G].
    destruct (sf_index sf fo rn); cbn [need lbind] in G; [|discriminate G].
    destruct (sf_gname sf fo _); cbn [need lbind] in G; [|discriminate G].
    destruct (sf_load sf fo _ (fixed_I _)); cbn [need lbind] in G; [|discriminate G].
    destruct (sf_advance sf fo _ _); cbn [need lbind] in G; [|discriminate G].
    destruct (sf_load sf fo _ (sf_upem _ _)); cbn [need lbind] in G; [|discriminate G].
    destruct (sf_bounds sf fo _ _) as [[[[? ?] ?] ?]|]; cbn [need lbind] in G; [|discriminate G].
    injection G as <-. split; reflexivity. }
  cbn [perform amap fst] in H. unfold metrics_of, cbind, get_info in H.
  destruct (find _ _) as [v|] eqn:E.
  - cbn [fst cret] in H. injection H as <-. destruct (find_in _ _ _ E) as (k' & I & EK).
    destruct (FH _ I) as (r & q & _ & _ & _ & E2). eapply GV. exact E2.
  - destruct (glyph_val sf fnts sym ft dpi m) as [v|e] eqn:G; [|discriminate H].
    cbn [find] in H. destruct (key_eqb _ _).
    + cbn [fst cret] in H. injection H as <-. eapply GV. exact G.
    + rewrite E in H. cbn [fst cret] in H. injection H as <-. split; reflexivity.
Qed.

(** Metrics scale with the font size (the slant aside): a fresh backend asked for
    [c] times the size panics in the same cases and answers [c] times the numbers. *)
Definition times (c : Qc) (me : @metrics exact) : @metrics exact :=
  let x := fun v => fmul exact (Fin c) v in
  mk_metrics (A:=exact) (x (m_adv me)) (x (m_height me)) (x (m_width me)) (x (m_xmin me)) (x (m_xmax me))
    (x (m_ymin me)) (x (m_ymax me)) (x (m_iceberg me)) (m_slanted me).
Lemma key_fin_refl sym nm ty s d : key_eqb (A:=exact) (mk_key sym (mk_font nm ty (Fin s)) (Fin d)) (mk_key sym (mk_font nm ty (Fin s)) (Fin d)) = true.
Proof. unfold key_eqb, font_eqb. cbn. rewrite !String.eqb_refl, !qeqb_refl. reflexivity. Qed.

Theorem C50_linear_exact : forall (Fnt : Type) (sf : @sfnt exact Fnt) fnts sym nm ty s d m k c,
  let ask z := fst (perform sf fnts (RMetrics sym (mk_font nm ty (Fin z)) (Fin d) m) (new_ttf k)) in
  (exists me, ask s = LOk (AMetrics me) /\ ask (c * s)%Qc = LOk (AMetrics (times c me))) \/
  (exists e, ask s = LPanic e /\ ask (c * s)%Qc = LPanic e).
Proof.
  intros Fnt sf fnts sym nm ty s d m k c ask. unfold ask.
  cbn [perform amap fst]. unfold metrics_of, cbind, get_info. cbn [new_ttf t_glyphs find].
  destruct (glyph_val_nums sf fnts sym nm ty m) as [(n & f & ps & name & rn & idx & off & G)|(e & G)]; rewrite !G; [left|right].
  - rewrite !key_fin_refl. cbn [fst cret v_met]. eexists. split; [reflexivity|]. apply f_equal. apply f_equal.
    unfold times, nums_metrics. cbn [m_adv m_height m_width m_xmin m_xmax m_ymin m_ymax m_iceberg m_slanted].
    rewrite !mul_fin. apply metrics_eq; apply f_equal; ring.
  - eexists. split; reflexivity.
Qed.

(** The height and depth of a character add up to the height of its glyph. *)
Theorem C50_char_height_exact : forall (Fnt : Type) (sf : @sfnt exact Fnt) fnts h sym st m c ch s',
  fin (f_size (st_font st)) -> fin (st_dpi st) ->
  new_char (ttf_backend sf fnts) sym st m (after sf fnts h (new_ttf c)) = LOk (ch, s') ->
  fadd exact (c_height ch) (c_depth ch) = m_height (c_metrics ch).
Proof.
  intros Fnt sf fnts h sym st m c ch s' Fs Fd H.
  unfold new_char, mbind in H. cbn [be_metrics ttf_backend] in H. unfold to_M in H.
  destruct (metrics_of sf fnts sym (st_font st) (st_dpi st) m (after sf fnts h (new_ttf c))) as [[me|e] s1] eqn:E; [|discriminate H].
  injection H as <- _. cbn [c_height c_depth c_metrics].
  assert (Q : fin (m_height me) /\ fin (m_iceberg me)).
  { assert (FH : from sf fnts h (after sf fnts h (new_ttf c))).
    { apply after_from; [auto|]. intros kv I; destruct I. }
    destruct st as [[nm ty z] dpi]. cbn [st_font st_dpi f_size] in *. destruct Fs as (q & ->). destruct Fd as (d & ->).
    unfold metrics_of, cbind, get_info in E.
    destruct (find _ _) as [v|] eqn:EF.
    - cbn [cret] in E. injection E as <- _.
      destruct (find_in _ _ _ EF) as (k' & I & EK). apply key_eq_exact in EK. subst k'.
      destruct (FH _ I) as (r & [k0 m0] & _ & _ & E1 & E2). cbn [fst snd] in E1, E2. subst k0. cbn [k_sym k_font k_dpi] in E2.
      destruct (glyph_val_nums sf fnts sym nm ty m0) as [(n & f & ps & name & rn & idx & off & G)|(e & G)]; rewrite G in E2;
        [|discriminate E2].
      injection E2 as <-. split; eexists; reflexivity.
    - destruct (glyph_val_nums sf fnts sym nm ty m) as [(n & f & ps & name & rn & idx & off & G)|(e & G)]; rewrite G in E;
        [|discriminate E].
      cbn [find] in E. rewrite key_fin_refl in E. cbn [cret] in E. injection E as <- _. split; eexists; reflexivity. }
  destruct Q as [(a & ->) (b & ->)]. rewrite sub_fin, opp_fin, add_fin. apply f_equal. ring.
Qed.

Example C50_case : exists me,
  fst (perform (toy exact) toy_fonts (RMetrics "a" rm10 dpi72 true)
    (after (toy exact) toy_fonts [RMetrics "a" rm10 dpi72 false] (new_ttf new_canvas))) = LOk (AMetrics me) /\
  m_width me = Fin (Q2Qc 970) /\ m_ymax me = Fin (Q2Qc 10).
Proof. eexists. split; [vm_compute; reflexivity|]. split; vm_compute; f_equal; apply Qc_is_canon; reflexivity. Qed.

(** ** C53: only letters are italic *)
(** In the italic font, a symbol that is not a letter (below U+10000) is measured
    and drawn exactly as in the roman font; a letter uses the italic face and is
    marked as slanted. *)
Lemma metrics_fresh {A : arith} {Fnt} (sf : @sfnt A Fnt) fnts sym ft dpi m k :
  fst (metrics_of sf fnts sym ft dpi m (new_ttf k)) =
  match glyph_val sf fnts sym ft dpi m with
  | LOk v => LOk (if key_eqb (mk_key sym ft dpi) (mk_key sym ft dpi) then v_met v else met0)
  | LPanic e => LPanic e
  end.
Proof.
  unfold metrics_of, cbind, get_info. cbn [new_ttf t_glyphs find].
  destruct (glyph_val sf fnts sym ft dpi m); [|reflexivity]. cbn [fst cret]. destruct (key_eqb _ _); reflexivity.
Qed.
Lemma drawn_fresh {A : arith} {Fnt} (sf : @sfnt A Fnt) fnts x y sym ft dpi k :
  fst (perform sf fnts (RGlyph x y ft sym dpi) (new_ttf k)) =
  match glyph_val sf fnts sym ft dpi true with
  | LOk v => LOk (ADrawn [GlyphOp x y (glyph_of (if key_eqb (mk_key sym ft dpi) (mk_key sym ft dpi) then v else val0))])
  | LPanic e => LPanic e
  end.
Proof.
  cbn [perform drawn fst]. unfold render_glyph, cbind, get_info. cbn [new_ttf t_glyphs t_canvas find].
  destruct (glyph_val sf fnts sym ft dpi true); [|reflexivity]. cbn [fst snd t_canvas]. unfold cnv_glyph.
  rewrite skipn_app_exact. destruct (key_eqb _ _); reflexivity.
Qed.
Lemma key_type {A : arith} sym nm ty ty' (sz dpi : Arith.F A) :
  key_eqb (mk_key sym (mk_font nm ty sz) dpi) (mk_key sym (mk_font nm ty sz) dpi) =
  key_eqb (mk_key sym (mk_font nm ty' sz) dpi) (mk_key sym (mk_font nm ty' sz) dpi).
Proof. unfold key_eqb, font_eqb. cbn. now rewrite !String.eqb_refl. Qed.

Theorem C53_nonletters_upright : forall (A : arith) (Fnt : Type) (sf : @sfnt A Fnt) fnts sym nm sz dpi m k r,
  index sym m = Some r -> r < 65536 -> uni_L sf r = false ->
  let it := mk_font nm "it" sz in
  let rm := mk_font nm "rm" sz in
  fst (metrics_of sf fnts sym it dpi m (new_ttf k)) = fst (metrics_of sf fnts sym rm dpi m (new_ttf k)) /\
  (m = true -> forall x y,
    fst (perform sf fnts (RGlyph x y it sym dpi) (new_ttf k)) = fst (perform sf fnts (RGlyph x y rm sym dpi) (new_ttf k))).
Proof.
  intros A Fnt sf fnts sym nm sz dpi m k r I L U it rm.
  assert (G : glyph_val sf fnts sym it dpi m = glyph_val sf fnts sym rm dpi m).
  { unfold glyph_val, get_glyph. cbn [f_type it rm]. rewrite I. cbn [need lbind].
    apply Z.ltb_lt in L. rewrite L, U. reflexivity. }
  split.
  - rewrite !metrics_fresh, G. unfold it, rm. rewrite (key_type sym nm "it" "rm"). reflexivity.
  - intros -> x y. rewrite !drawn_fresh, G. unfold it, rm. rewrite (key_type sym nm "it" "rm"). reflexivity.
Qed.
Theorem C53_letters_italic : forall (A : arith) (Fnt : Type) (sf : @sfnt A Fnt) fnts sym nm sz dpi k r x y o,
  index sym true = Some r -> uni_L sf r = true ->
  feqb A sz sz = true -> feqb A dpi dpi = true ->
  fst (perform sf fnts (RGlyph x y (mk_font nm "it" sz) sym dpi) (new_ttf k)) = LOk (ADrawn o) ->
  exists g, o = [GlyphOp x y g] /\ gl_font g = fn_it fnts /\ m_slanted (gl_met g) = true /\ gl_sym g = encode_rune r.
Proof.
  intros A Fnt sf fnts sym nm sz dpi k r x y o I U Ns Nd H. rewrite drawn_fresh in H.
  destruct (glyph_val _ _ _ _ _ _) as [v|e] eqn:G; [|discriminate H]. injection H as <-.
  unfold key_eqb, font_eqb. cbn [k_sym k_font k_dpi f_name f_type f_size]. rewrite !String.eqb_refl, Ns, Nd. cbn [andb].
  eexists. split; [reflexivity|]. unfold glyph_val, get_glyph in G. rewrite I in G. cbn [need lbind f_type] in G.
  rewrite U in G. cbn [negb] in G. rewrite andb_false_r in G.
  replace (get_font fnts "it") with (fn_it fnts) in G by reflexivity.
  destruct (fn_it fnts) as [f|]; cbn [need lbind] in G; [|discriminate G].
  destruct (sf_name sf f); cbn [need lbind] in G; [|discriminate G].
  destruct (sf_index sf f r); cbn [need lbind] in G; [|discriminate G].
  destruct (sf_gname sf f _); cbn [need lbind] in G; [|discriminate G].
  destruct (sf_load sf f _ (fixed_I _)); cbn [need lbind] in G; [|discriminate G].
  destruct (sf_advance sf f _ _); cbn [need lbind] in G; [|discriminate G].
  destruct (sf_load sf f _ (sf_upem _ _)); cbn [need lbind] in G; [|discriminate G].
  destruct (sf_bounds sf f _ _) as [[[[? ?] ?] ?]|]; cbn [need lbind] in G; [|discriminate G].
  injection G as <-. cbn. auto.
Qed.
Example C53_case : index "+" true = Some 43 /\ uni_L (toy exact) 43 = false /\ index "x" true = Some 120 /\ uni_L (toy exact) 120 = true.
Proof. repeat split; vm_compute; reflexivity. Qed.

(** ** C54: kerning *)
Theorem C54_kern_zero : forall (A : arith) (Fnt : Type) (sf : @sfnt A Fnt) fnts f1 s1 f2 s2 dpi s,
  f_name f1 <> f_name f2 \/ feqb A (f_size f1) (f_size f2) = false ->
  kern sf fnts f1 s1 f2 s2 dpi s = (LOk f0, s).
Proof.
  intros A Fnt sf fnts f1 s1 f2 s2 dpi s H. unfold kern.
  destruct H as [H|H]; [apply String.eqb_neq in H; rewrite H|rewrite H, andb_false_r]; reflexivity.
Qed.
(** Kerning does not depend on the font size (nor on the resolution): it is not
    scaled. *)
Lemma val_sizes {A : arith} {Fnt} (sf : @sfnt A Fnt) fnts sym nm ty m sz dpi sz' dpi' v :
  glyph_val sf fnts sym (mk_font nm ty sz) dpi m = LOk v ->
  exists v', glyph_val sf fnts sym (mk_font nm ty sz') dpi' m = LOk v' /\
    v_font v' = v_font v /\ v_glyph v' = v_glyph v /\ v_rune v' = v_rune v /\ v_ps v' = v_ps v.
Proof.
  unfold glyph_val. change (get_glyph sf fnts sym (mk_font nm ty sz) m) with (get_glyph sf fnts sym (mk_font nm ty sz') m).
  intros G.
  destruct (get_glyph _ _ _ _ _) as [[[fo rn] sl]|]; cbn [lbind] in *; [|discriminate G].
  destruct (sf_name sf fo); cbn [need lbind] in *; [|discriminate G].
  destruct (sf_index sf fo rn); cbn [need lbind] in *; [|discriminate G].
  destruct (sf_gname sf fo _); cbn [need lbind] in *; [|discriminate G].
  destruct (sf_load sf fo _ (fixed_I _)); cbn [need lbind] in *; [|discriminate G].
  destruct (sf_advance sf fo _ _); cbn [need lbind] in *; [|discriminate G].
  destruct (sf_load sf fo _ (sf_upem _ _)); cbn [need lbind] in *; [|discriminate G].
  destruct (sf_bounds sf fo _ _) as [[[[? ?] ?] ?]|]; cbn [need lbind] in *; [|discriminate G].
  eexists. split; [reflexivity|]. injection G as <-. cbn. auto.
Qed.
Lemma val_sizes_panic {A : arith} {Fnt} (sf : @sfnt A Fnt) fnts sym nm ty m sz dpi sz' dpi' e :
  glyph_val sf fnts sym (mk_font nm ty sz) dpi m = LPanic e ->
  exists e', glyph_val sf fnts sym (mk_font nm ty sz') dpi' m = LPanic e'.
Proof.
  intros G. destruct (glyph_val sf fnts sym (mk_font nm ty sz') dpi' m) as [v|e'] eqn:E; [|eauto].
  apply (val_sizes _ _ _ _ _ _ _ _ sz dpi) in E as (v' & E & _). rewrite E in G. discriminate G.
Qed.
Theorem C54_kern_unscaled : forall (Fnt : Type) (sf : @sfnt float64 Fnt) fnts nm ty1 ty2 s1 s2 z z' dpi dpi' k x,
  let fresh z dpi := fst (kern sf fnts (mk_font nm ty1 z) s1 (mk_font nm ty2 z) s2 dpi (new_ttf k)) in
  PrimFloat.eqb z z = true -> PrimFloat.eqb z' z' = true -> PrimFloat.eqb dpi dpi = true -> PrimFloat.eqb dpi' dpi' = true ->
  fresh z dpi = LOk x -> fresh z' dpi' = LOk x.
Proof.
  intros Fnt sf fnts nm ty1 ty2 s1 s2 z z' dpi dpi' k x fresh Nz Nz' Nd Nd'. unfold fresh.
  assert (K : forall z dpi, PrimFloat.eqb z z = true -> PrimFloat.eqb dpi dpi = true ->
    fst (kern sf fnts (mk_font nm ty1 z) s1 (mk_font nm ty2 z) s2 dpi (new_ttf k)) =
    match glyph_val sf fnts s1 (mk_font nm ty1 z) dpi true with
    | LPanic e => LPanic e
    | LOk v1 =>
      if String.eqb s2 s1 && String.eqb ty2 ty1 then kern_of sf v1 v1
      else match glyph_val sf fnts s2 (mk_font nm ty2 z) dpi true with
      | LPanic e => LPanic e
      | LOk v2 => kern_of sf v1 v2
      end
    end).
  { intros w d Nw Ndd. unfold kern. cbn [f_name f_size]. rewrite String.eqb_refl.
    change (feqb float64 w w) with (PrimFloat.eqb w w). rewrite Nw. cbn [andb].
    unfold cbind at 1. unfold get_info at 1. cbn [new_ttf t_glyphs find].
    destruct (glyph_val sf fnts s1 _ d true) as [v1|e]; [|reflexivity].
    assert (R : forall sy ty, key_eqb (A:=float64) (mk_key sy (mk_font nm ty w) d) (mk_key sy (mk_font nm ty w) d) = true).
    { intros. unfold key_eqb, font_eqb. cbn [k_sym k_font k_dpi f_name f_type f_size]. rewrite !String.eqb_refl.
      change (feqb float64) with PrimFloat.eqb. now rewrite Nw, Ndd. }
    rewrite R. unfold cbind, get_info. cbn [t_glyphs find].
    assert (R2 : key_eqb (A:=float64) (mk_key s2 (mk_font nm ty2 w) d) (mk_key s1 (mk_font nm ty1 w) d) = String.eqb s2 s1 && String.eqb ty2 ty1).
    { unfold key_eqb, font_eqb. cbn [k_sym k_font k_dpi f_name f_type f_size]. rewrite !String.eqb_refl.
      change (feqb float64) with PrimFloat.eqb. rewrite Nw, Ndd. cbn. now rewrite !andb_true_r. }
    rewrite R2. destruct (_ && _); [reflexivity|].
    destruct (glyph_val sf fnts s2 _ d true) as [v2|e]; [|reflexivity]. rewrite R. reflexivity. }
  rewrite !K by assumption.
  destruct (glyph_val sf fnts s1 (mk_font nm ty1 z) dpi true) as [v1|e] eqn:G1; [|intros X; discriminate X].
  destruct (val_sizes _ _ _ _ _ _ _ _ z' dpi' _ G1) as (v1' & G1' & F1 & I1 & _). rewrite G1'.
  destruct (_ && _).
  - unfold kern_of. now rewrite F1, I1.
  - destruct (glyph_val sf fnts s2 (mk_font nm ty2 z) dpi true) as [v2|e] eqn:G2; [|intros X; discriminate X].
    destruct (val_sizes _ _ _ _ _ _ _ _ z' dpi' _ G2) as (v2' & G2' & F2 & I2 & _). rewrite G2'.
    unfold kern_of. now rewrite F1, I1, I2.
Qed.
Example C54_case : fst (kern (toy float64) toy_fonts (mk_font "default" "rm" 10%float) "a" (mk_font "default" "it" 10%float) "a" 72%float (new_ttf new_canvas)) = LOk 1%float
  /\ fst (kern (toy float64) toy_fonts (mk_font "default" "rm" 20%float) "a" (mk_font "default" "it" 20%float) "a" 72%float (new_ttf new_canvas)) = LOk 1%float.
Proof. split; vm_compute; reflexivity. Qed.

(** ** C55: faces *)
(** The bold-italic face is never used, and only five font types exist. *)
Theorem C55_bold_italic_unused : forall (A : arith) (Fnt : Type) (sf : @sfnt A Fnt) d r i b x x' h s,
  after sf (mk_fonts d r i b x) h s = after sf (mk_fonts d r i b x') h s /\
  forall q, fst (perform sf (mk_fonts d r i b x) q (after sf (mk_fonts d r i b x) h s)) =
            fst (perform sf (mk_fonts d r i b x') q (after sf (mk_fonts d r i b x') h s)).
Proof.
  intros A Fnt sf d r i b x x' h.
  assert (P : forall q s, perform sf (mk_fonts d r i b x) q s = perform sf (mk_fonts d r i b x') q s).
  { intros q s. destruct q; reflexivity. }
  assert (Q : forall h s, after sf (mk_fonts d r i b x) h s = after sf (mk_fonts d r i b x') h s).
  { clear h. induction h as [|q h IH]; intros s; cbn [after]; [reflexivity|]. rewrite P. apply IH. }
  intros s. split; [apply Q|]. intros q. now rewrite P, Q.
Qed.
Theorem C55_unknown_type_panics : forall (A : arith) (Fnt : Type) (sf : @sfnt A Fnt) fnts h sym nm ty sz dpi m k,
  ~ In ty ["default"; "regular"; "rm"; "it"; "bf"] ->
  exists e, fst (perform sf fnts (RMetrics sym (mk_font nm ty sz) dpi m) (after sf fnts h (new_ttf k))) = LPanic e.
Proof.
  intros A Fnt sf fnts h sym nm ty sz dpi m k N.
  assert (B : forall t, ~ In t ["default"; "regular"; "rm"; "it"; "bf"] -> get_font fnts t = None).
  { intros t Nt. unfold get_font. cbn [In] in Nt.
    destruct (String.eqb_spec t "default"); [exfalso; intuition|]. destruct (String.eqb_spec t "regular"); [exfalso; intuition|].
    destruct (String.eqb_spec t "rm"); [exfalso; intuition|]. destruct (String.eqb_spec t "it"); [exfalso; intuition|].
    destruct (String.eqb_spec t "bf"); [exfalso; intuition|]. reflexivity. }
  assert (G : forall sy n z dp mm, exists e, glyph_val sf fnts sy (mk_font n ty z) dp mm = LPanic e).
  { intros. unfold glyph_val, get_glyph. destruct (index sy mm) as [r|]; cbn [need lbind]; [|eauto].
    cbn [f_type]. assert (E : String.eqb ty "it" = false).
    { apply String.eqb_neq. intros ->. apply N. cbn. tauto. }
    rewrite E. cbn [andb]. rewrite (B ty N). cbn. eauto. }
  assert (FH : from sf fnts h (after sf fnts h (new_ttf k))).
  { apply after_from; [auto|]. intros kv I; destruct I. }
  cbn [perform amap fst]. unfold metrics_of, cbind, get_info.
  destruct (find _ _) as [v|] eqn:E.
  - exfalso. destruct (find_in _ _ _ E) as (k' & I & EK).
    destruct (FH _ I) as (r & [k0 m0] & _ & _ & E1 & E2). cbn [fst snd] in E1, E2. subst k0.
    unfold key_eqb, font_eqb in EK. cbn [k_sym k_font k_dpi f_name f_type f_size] in EK.
    rewrite !andb_true_iff, !String.eqb_eq in EK. destruct EK as ((_ & (_ & ET) & _) & _).
    destruct k' as [sy [n t z] dp]. cbn in ET. subst t. destruct (G sy n z dp m0) as (e & G').
    cbn [k_sym k_font k_dpi] in E2. rewrite G' in E2. discriminate E2.
  - destruct (G sym nm sz dpi m) as (e & ->). cbn. eauto.
Qed.
(** Which of the given fonts a glyph is drawn with, by the type asked for. *)
Theorem C55_face_drawn : forall (A : arith) (Fnt : Type) (sf : @sfnt A Fnt) fnts sym nm ty sz dpi k x y o,
  feqb A sz sz = true -> feqb A dpi dpi = true ->
  fst (perform sf fnts (RGlyph x y (mk_font nm ty sz) sym dpi) (new_ttf k)) = LOk (ADrawn o) ->
  exists g, o = [GlyphOp x y g] /\ gl_size g = sz /\
    In (ty, gl_font g) [("default", fn_default fnts); ("regular", fn_rm fnts); ("rm", fn_rm fnts);
                        ("it", fn_it fnts); ("it", fn_rm fnts); ("bf", fn_bf fnts)] /\
    fst (perform sf fnts (RMetrics sym (mk_font nm ty sz) dpi true) (new_ttf k)) = LOk (AMetrics (gl_met g)).
Proof.
  intros A Fnt sf fnts sym nm ty sz dpi k x y o Ns Nd H. rewrite drawn_fresh in H. cbn [perform]. unfold amap. rewrite metrics_fresh.
  destruct (glyph_val _ _ _ _ _ _) as [v|e] eqn:G; [|discriminate H]. injection H as <-.
  unfold key_eqb, font_eqb. cbn [k_sym k_font k_dpi f_name f_type f_size]. rewrite !String.eqb_refl, Ns, Nd. cbn [andb].
  eexists. split; [reflexivity|]. cbn [gl_size gl_font gl_met]. unfold glyph_val in G.
  destruct (get_glyph _ _ _ _ _) as [[[f rn] sl]|] eqn:GG; cbn [lbind] in G; [|discriminate G].
  repeat (match type of G with lbind (need _ ?q) _ = _ => destruct q; cbn [need lbind] in G; [|discriminate G] end).
  destruct p as [[[x0 y0] x1] y1]. match type of G with LOk ?a = LOk v => assert (V : a = v) by congruence end. clear G. subst v. cbn [v_size v_font v_met f_size].
  split; [reflexivity|]. split; [|reflexivity].
  unfold get_glyph in GG. cbn [f_type] in GG. destruct (index sym true) as [r|]; cbn [need lbind] in GG; [|discriminate GG].
  match type of GG with lbind (need _ (get_font fnts ?t)) _ = _ => set (typ := t) in * end.
  destruct (get_font fnts typ) as [f'|] eqn:GF; cbn [need lbind] in GG; [|discriminate GG]. injection GG as -> _ _.
  assert (T : typ = ty \/ ty = "it" /\ typ = "rm").
  { unfold typ. destruct (String.eqb_spec ty "it"); cbn [andb]; [|now left]. destruct (_ && _); auto. }
  cbn [In]. unfold get_font in GF. destruct T as [->|[-> E]].
  - destruct (String.eqb_spec ty "default") as [->|]; [left; now f_equal|]. destruct (String.eqb_spec ty "regular") as [->|]; [right; left; now f_equal|].
    destruct (String.eqb_spec ty "rm") as [->|]; [do 2 right; left; now f_equal|]. destruct (String.eqb_spec ty "it") as [->|]; [do 3 right; left; now f_equal|].
    destruct (String.eqb_spec ty "bf") as [->|]; [do 5 right; left; now f_equal|discriminate GF].
  - rewrite E in GF. cbn in GF. do 4 right. left. now f_equal.
Qed.
Example C55_face_case : forallb (fun ty => match fst (perform (toy float64) toy_fonts (RGlyph 1 2 (mk_font (A:=float64) "default" ty 20) "a" 72) (new_ttf new_canvas)) with
  LOk (ADrawn [GlyphOp _ _ g]) => match gl_font g with Some _ => true | None => false end | _ => false end%float) ["default"; "regular"; "rm"; "it"; "bf"] = true.
Proof. vm_compute. reflexivity. Qed.
Example C55_case : ~ In "bfit" ["default"; "regular"; "rm"; "it"; "bf"].
Proof. cbn. intuition discriminate. Qed.
