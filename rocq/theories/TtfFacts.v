(** Lemmas about the TrueType backend. *)
From Coq Require Import ZArith String Ascii List Bool Lia Floats Reals Lra.
From Flocq Require Import IEEE754.BinarySingleNaN IEEE754.PrimFloat.
From Verif Require Import Utf8 Utf8Facts Parser Symbols Arith Exact OrderLaws Box Ttf TtfSpec.
Import ListNotations.
Local Open Scope string_scope.
Local Open Scope list_scope.
Local Open Scope Z_scope.

(** Go's == on float64 is a partial equivalence. *)
Record eq_laws (A : arith) : Prop := mk_eq_laws {
  el_sym : forall a b : F A, feqb A a b = true -> feqb A b a = true;
  el_trans : forall a b c : F A, feqb A a b = true -> feqb A b c = true -> feqb A a c = true }.
Lemma exact_eq : eq_laws exact.
Proof.
  constructor; cbn; intros *.
  - intros H. pose proof (xeqb_eq _ _ H); subst. exact H.
  - intros H1 H2. pose proof (xeqb_eq _ _ H1); subst. exact H2.
Qed.
Lemma beqb_fin (a b : bfloat) : Beqb a b = true ->
  (is_finite a = true /\ is_finite b = true /\ B2R a = B2R b) \/ (is_finite a = false /\ a = b).
Proof.
  intros H. destruct (is_finite a) eqn:Fa, (is_finite b) eqn:Fb.
  - left. rewrite Beqb_correct in H by assumption. destruct (Raux.Req_bool_spec (B2R a) (B2R b)); [auto|discriminate].
  - destruct b as [[]|[]| |]; try discriminate Fb; destruct a as [[]|[]| |[]]; try discriminate; auto.
  - destruct a as [[]|[]| |]; try discriminate Fa; destruct b as [[]|[]| |[]]; try discriminate; auto.
  - destruct a as [[]|[]| |]; try discriminate Fa; destruct b as [[]|[]| |]; try discriminate; auto.
Qed.
Lemma float64_eq : eq_laws float64.
Proof.
  constructor; cbn [feqb float64]; intros *; rewrite !eqb_equiv.
  - intros H. destruct (beqb_fin _ _ H) as [(F1 & F2 & E)|(F1 & E)].
    + rewrite Beqb_correct by assumption. apply Raux.Req_bool_true. congruence.
    + rewrite <- E in *. exact H.
  - intros H1 H2. destruct (beqb_fin _ _ H1) as [(F1 & F2 & E)|(F1 & E)].
    + destruct (beqb_fin _ _ H2) as [(F3 & F4 & E2)|(F3 & E2)]; [|congruence].
      rewrite Beqb_correct by assumption. apply Raux.Req_bool_true. congruence.
    + rewrite E. exact H2.
Qed.

Section Facts.
Context {A : arith} {Fnt : Type}.
Hypothesis EL : eq_laws A.
Notation F := (Arith.F A).
Notation font := (@Box.font A).
Notation key := (@key A).
Notation val := (@val A Fnt).
Notation ttf := (@ttf A Fnt).
Notation request := (@request A).
Notation answer := (@answer A Fnt).
Variable sf : @sfnt A Fnt.
Variable fnts : @fonts Fnt.

Lemma key_eqb_sym (a b : key) : key_eqb a b = true -> key_eqb b a = true.
Proof.
  unfold key_eqb, font_eqb. rewrite !andb_true_iff, !String.eqb_eq.
  intros ((-> & (-> & ->) & H1) & H2). repeat split; now apply (el_sym A EL).
Qed.
Lemma key_eqb_trans (a b c : key) : key_eqb a b = true -> key_eqb b c = true -> key_eqb a c = true.
Proof.
  unfold key_eqb, font_eqb. rewrite !andb_true_iff, !String.eqb_eq.
  intros ((-> & (-> & ->) & H1) & H2) ((-> & (-> & ->) & H3) & H4).
  repeat split; eapply (el_trans A EL); eassumption.
Qed.

Lemma find_in k (c : list (key * val)) v : find k c = Some v -> exists k', In (k', v) c /\ key_eqb k k' = true.
Proof.
  induction c as [|[k' v'] c IH]; cbn; [discriminate|]. destruct (key_eqb k k') eqn:E.
  - intros H; injection H as ->. eauto.
  - intros H. destruct (IH H) as (k2 & I & E2). eauto.
Qed.
Lemma find_none k (c : list (key * val)) k' v : find k c = None -> In (k', v) c -> key_eqb k k' = false.
Proof.
  induction c as [|[k2 v2] c IH]; cbn; [tauto|]. destruct (key_eqb k k2) eqn:E; [discriminate|].
  intros H [X|X]; [injection X as -> ->; assumption|now apply IH].
Qed.
(** An entry stays what it is. *)
Lemma find_stays k v k' v' (c : list (key * val)) : find k' c = None -> find k c = Some v -> find k ((k', v') :: c) = Some v.
Proof.
  intros N H. cbn. destruct (key_eqb k k') eqn:E; [|assumption].
  destruct (find_in _ _ _ H) as (k2 & I & E2).
  exfalso. pose proof (key_eqb_trans _ _ _ (key_eqb_sym _ _ E) E2) as X.
  rewrite (find_none _ _ _ _ N I) in X. discriminate X.
Qed.
(** Lookups do not depend on which of two equal keys is used. *)
Lemma find_eq k k' (c : list (key * val)) : key_eqb k k' = true -> find k c = find k' c.
Proof.
  intros E. induction c as [|[k2 v2] c IH]; cbn; [reflexivity|].
  destruct (key_eqb k k2) eqn:E1, (key_eqb k' k2) eqn:E2; auto; exfalso.
  - rewrite (key_eqb_trans _ _ _ (key_eqb_sym _ _ E) E1) in E2. discriminate.
  - rewrite (key_eqb_trans _ _ _ E E2) in E1. discriminate.
Qed.

(** States: entries are only added. *)
Definition ext (s s' : ttf) : Prop := forall k v, find k (t_glyphs s) = Some v -> find k (t_glyphs s') = Some v.
Lemma ext_refl s : ext s s. Proof. intros k v H; exact H. Qed.
Lemma ext_trans s1 s2 s3 : ext s1 s2 -> ext s2 s3 -> ext s1 s3.
Proof. intros H1 H2 k v H. auto. Qed.

Lemma get_info_ext sym ft dpi m s : ext s (snd (get_info sf fnts sym ft dpi m s)).
Proof.
  unfold get_info. destruct (find _ (t_glyphs s)) eqn:E; [apply ext_refl|].
  destruct (glyph_val _ _ _ _ _ _); [|apply ext_refl]. cbn. intros k v H. cbn [t_glyphs]. now apply find_stays.
Qed.
Lemma get_info_canvas sym ft dpi m s : t_canvas (snd (get_info sf fnts sym ft dpi m s)) = t_canvas s.
Proof.
  unfold get_info. destruct (find _ _); [reflexivity|]. destruct (glyph_val _ _ _ _ _ _); reflexivity.
Qed.

Lemma cbind_snd {X Y} (m : call X) (k : X -> call Y) s (P : ttf -> Prop) :
  P (snd (m s)) -> (forall x s', m s = (LOk x, s') -> P (snd (k x s'))) -> P (snd (cbind m k s)).
Proof.
  intros H1 H2. unfold cbind. destruct (m s) as [[x|e] s'] eqn:E; cbn in *; auto.
Qed.

(** Every entry is what a request needed, as computed without a cache. *)
Definition entry_of (q : key * bool) (kv : key * val) : Prop :=
  fst kv = fst q /\
  glyph_val sf fnts (k_sym (fst q)) (k_font (fst q)) (k_dpi (fst q)) (snd q) = LOk (snd kv).
Definition from (h : list request) (s : ttf) : Prop :=
  forall kv, In kv (t_glyphs s) -> exists r q, In r h /\ In q (needs r) /\ entry_of q kv.

Lemma get_info_from h sym ft dpi m s r : In r h -> In (mk_key sym ft dpi, m) (needs r) ->
  from h s -> from h (snd (get_info sf fnts sym ft dpi m s)).
Proof.
  intros I N H. unfold get_info. destruct (find _ _); [exact H|].
  destruct (glyph_val sf fnts sym ft dpi m) eqn:E; [|exact H]. cbn [snd].
  intros kv [X|X]; [|exact (H kv X)].
  subst kv. exists r, (mk_key sym ft dpi, m). repeat split; auto.
Qed.
Lemma perform_from h r s : In r h -> from h s -> from h (snd (perform sf fnts r s)).
Proof.
  intros I H. destruct r; cbn [perform amap drawn snd].
  - unfold metrics_of. apply cbind_snd; [|intros v s' E]; [|cbn; replace s' with (snd (get_info sf fnts sym ft dpi math s)) by now rewrite E];
      (eapply get_info_from; [exact I|now left|exact H]).
  - unfold kern. destruct (_ && _); [|exact H].
    assert (G1 : from h (snd (get_info sf fnts sym1 ft1 dpi true s))) by (eapply get_info_from; [exact I|now left|exact H]).
    apply cbind_snd; [exact G1|]. intros v1 s1 E1. rewrite E1 in G1. cbn in G1.
    assert (G2 : from h (snd (get_info sf fnts sym2 ft2 dpi true s1))) by (eapply get_info_from; [exact I|right; now left|exact G1]).
    apply cbind_snd; [exact G2|]. intros v2 s2 E2. rewrite E2 in G2. exact G2.
  - unfold render_glyph. 
    assert (G1 : from h (snd (get_info sf fnts sym ft dpi true s))) by (eapply get_info_from; [exact I|now left|exact H]).
    apply cbind_snd; [exact G1|]. intros v1 s1 E1. rewrite E1 in G1. exact G1.
  - exact H.
  - exact H.
  - exact H.
Qed.
Lemma after_from h : forall h0 s, (forall r, In r h -> In r h0) -> from h0 s -> from h0 (after sf fnts h s).
Proof.
  induction h as [|r h IH]; intros h0 s I H; cbn; [exact H|]. apply IH; [intros; apply I; now right|].
  apply perform_from; [apply I; now left|exact H].
Qed.

(** A plain symbol means the same in both modes. *)
Lemma plain_index sym : plain sym -> index sym true = index sym false.
Proof.
  intros (a & -> & B & N). unfold index. cbn [negb String.length Nat.eqb].
  assert (E : String.eqb (String a "") "-" = false).
  { apply String.eqb_neq. intros X. injection X as X. contradiction. }
  rewrite E.
  assert (D : fst (decode_rune (String a "")) = byte a).
  { unfold decode_rune. destruct (byte a <? 128) eqn:L; [reflexivity|]. apply Z.ltb_ge in L. lia. }
  rewrite D. unfold RuneError.
  destruct (byte a =? 65533) eqn:X; [apply Z.eqb_eq in X; lia|reflexivity].
Qed.
Lemma agree_val q q' : agree q q' ->
  glyph_val sf fnts (k_sym (fst q)) (k_font (fst q)) (k_dpi (fst q)) (snd q) =
  glyph_val sf fnts (k_sym (fst q')) (k_font (fst q')) (k_dpi (fst q')) (snd q').
Proof.
  intros (E & H). rewrite <- E. destruct H as [->|P]; [reflexivity|].
  destruct (snd q), (snd q'); try reflexivity; unfold glyph_val, get_glyph; now rewrite (plain_index _ P).
Qed.

(** What a fresh backend answers. *)
Definition fresh (q : key * bool) : lres val :=
  match glyph_val sf fnts (k_sym (fst q)) (k_font (fst q)) (k_dpi (fst q)) (snd q) with
  | LOk v => LOk (if key_eqb (fst q) (fst q) then v else val0)
  | LPanic e => LPanic e
  end.
Definition all_agree (h : list request) : Prop := forall r r' q q', In r h -> In r' h ->
  In q (needs r) -> In q' (needs r') -> key_eqb (fst q) (fst q') = true -> agree q q'.

Lemma get_info_fresh h sym ft dpi m s r : all_agree h -> from h s -> In r h -> In (mk_key sym ft dpi, m) (needs r) ->
  fst (get_info sf fnts sym ft dpi m s) = fresh (mk_key sym ft dpi, m).
Proof.
  intros AG H I N. unfold get_info, fresh. cbn [fst snd k_sym k_font k_dpi].
  destruct (find (mk_key sym ft dpi) (t_glyphs s)) as [v|] eqn:E; cbn [fst].
  - destruct (find_in _ _ _ E) as (k' & In' & E').
    destruct (H _ In') as (r' & q' & Ir' & Nq' & Ek & EV). cbn [fst snd] in *. subst k'.
    pose proof (AG r r' _ q' I Ir' N Nq' E') as G. pose proof (agree_val _ _ G) as GV. cbn [fst snd k_sym k_font k_dpi] in GV.
    rewrite GV, EV. destruct G as [Gk _]. cbn [fst] in Gk. rewrite <- Gk in E'. now rewrite E'.
  - destruct (glyph_val sf fnts sym ft dpi m) as [v|e]; cbn [fst]; [|reflexivity].
    cbn [find]. destruct (key_eqb (mk_key sym ft dpi) (mk_key sym ft dpi)); [reflexivity|now rewrite E].
Qed.

Lemma skipn_app_exact {X} (l l' : list X) : skipn (List.length l) (l ++ l') = l'.
Proof. induction l; [reflexivity|exact IHl]. Qed.

Definition glyph_of (v : val) : @glyph A Fnt :=
  mk_glyph (v_font v) (v_size v) (v_ps v) (v_met v) (encode_rune (v_rune v)) (v_glyph v) (v_off v).
Definition kern_of (v1 v2 : val) : lres F :=
  lbind (need "nil pointer" (v_font v1)) (fun f =>
    match sf_kern sf f (v_glyph v1) (v_glyph v2) (sf_upem sf f) with
    | KernIs k => LOk (fdiv A (fofZ A k) (fofZ A 64))
    | KernNotFound => LOk f0
    | KernError => LPanic "could not compute kerning"
    end).

(** The answer to a request as a function of what it needs. *)
Definition answer_of (r : request) (look : key * bool -> lres val) : lres answer :=
  match r with
  | RMetrics sym ft dpi m => lbind (look (mk_key sym ft dpi, m)) (fun v => LOk (AMetrics (v_met v)))
  | RKern f1 s1 f2 s2 dpi =>
    if String.eqb (f_name f1) (f_name f2) && feqb A (f_size f1) (f_size f2) then
      lbind (look (mk_key s1 f1 dpi, true)) (fun v1 =>
      lbind (look (mk_key s2 f2 dpi, true)) (fun v2 => lbind (kern_of v1 v2) (fun x => LOk (ANumber x))))
    else LOk (ANumber f0)
  | RGlyph x y ft sym dpi => lbind (look (mk_key sym ft dpi, true)) (fun v => LOk (ADrawn [GlyphOp x y (glyph_of v)]))
  | RRect x1 y1 x2 y2 => LOk (ADrawn [RectOp x1 y1 x2 y2])
  | RXHeight ft dpi =>
    lbind (need "nil pointer" (get_font fnts (f_type ft))) (fun f =>
    lbind (need "could not open font face" (sf_xheight sf f (f_size ft) dpi)) (fun h =>
      LOk (ANumber (fdiv A (fofZ A (- h)) (fofZ A 64)))))
  | RUnderline ft dpi => LOk (ANumber (underline ft dpi))
  end.

Lemma perform_fresh h r s : all_agree h -> from h s -> In r h ->
  fst (perform sf fnts r s) = answer_of r fresh.
Proof.
  intros AG H I. destruct r; cbn [perform answer_of]; unfold amap, drawn; cbn [fst].
  - unfold metrics_of, cbind. pose proof (get_info_fresh h sym ft dpi math s _ AG H I (or_introl eq_refl)) as G.
    destruct (get_info sf fnts sym ft dpi math s) as [[v|e] s']; cbn in G |- *; now rewrite <- G.
  - unfold kern. destruct (_ && _); [|reflexivity]. unfold cbind.
    pose proof (get_info_fresh h sym1 ft1 dpi true s _ AG H I (or_introl eq_refl)) as G1.
    assert (F1 : from h (snd (get_info sf fnts sym1 ft1 dpi true s))) by (eapply get_info_from; [exact I|now left|exact H]).
    destruct (get_info sf fnts sym1 ft1 dpi true s) as [[v1|e] s1]; cbn [fst snd] in G1, F1; rewrite <- G1; cbn [lbind]; [|reflexivity].
    pose proof (get_info_fresh h sym2 ft2 dpi true s1 _ AG F1 I (or_intror (or_introl eq_refl))) as G2.
    destruct (get_info sf fnts sym2 ft2 dpi true s1) as [[v2|e] s2]; cbn [fst snd] in G2; rewrite <- G2; cbn [lbind fst]; [|reflexivity].
    unfold cret, kern_of. cbn [fst]. destruct (need _ (v_font v1)); [|reflexivity]. cbn [lbind].
    destruct (sf_kern _ _ _ _ _); reflexivity.
  - unfold render_glyph, cbind. pose proof (get_info_fresh h sym ft dpi true s _ AG H I (or_introl eq_refl)) as G.
    pose proof (get_info_canvas sym ft dpi true s) as C.
    destruct (get_info sf fnts sym ft dpi true s) as [[v|e] s']; cbn [fst snd] in G, C |- *; rewrite <- G; cbn [lbind]; [|reflexivity].
    cbn [t_canvas]. unfold cnv_glyph. now rewrite C, skipn_app_exact.
  - cbn. unfold cnv_rect. now rewrite skipn_app_exact.
  - unfold xheight, cret. cbn [fst]. destruct (need _ _); [|reflexivity]. cbn [lbind]. destruct (need _ _); reflexivity.
  - reflexivity.
Qed.

End Facts.
