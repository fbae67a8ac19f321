(** Lemmas about Render: drawing on the TrueType backend, and what holds of the
    characters and the cache after typesetting. *)
From Coq Require Import ZArith String Ascii List Bool Lia.
From Verif Require Import Utf8 Token Ast Parser Symbols Arith Box Ship ShipSpec ShipFacts ShipFacts2 Mtex MtexFacts MtexFacts2
  MtexHoare Ttf TtfSpec TtfFacts Render PropTtf.
Import ListNotations.
Local Open Scope string_scope.
Local Open Scope list_scope.
Local Open Scope Z_scope.

Section Facts.
Context {A : arith} {Fnt : Type}.
Hypothesis EL : eq_laws A.
Notation F := (Arith.F A).
Notation font := (@Box.font A).
Notation tnode := (@Box.tnode A).
Notation tchar := (@Box.tchar A).
Notation key := (@key A).
Notation val := (@val A Fnt).
Notation ttf := (@ttf A Fnt).
Notation event := (@event A).
Notation op := (@op A Fnt).
Variable sf : @sfnt A Fnt.
Variable fnts : @fonts Fnt.

(** Every cached value was computed from a request with the same key, and a math
    flag in [G]. *)
Definition sound (G : bool -> Prop) (s : ttf) : Prop := forall k v, In (k, v) (t_glyphs s) ->
  exists m, G m /\ glyph_val sf fnts (k_sym k) (k_font k) (k_dpi k) m = LOk v.

(** What a lookup that returned [v] says about [v]. *)
Definition looked (G : bool -> Prop) (k : key) (v : val) : Prop :=
  if key_eqb k k then
    exists ft dpi m, key_eqb k (mk_key (k_sym k) ft dpi) = true /\ G m /\ glyph_val sf fnts (k_sym k) ft dpi m = LOk v
  else v = val0.

Lemma key_refl_of (k k' : key) : key_eqb k k' = true -> key_eqb k k = true.
Proof. intros H. eapply (key_eqb_trans EL); [exact H|]. apply (key_eqb_sym EL). exact H. Qed.
Lemma find_refl k (c : list (key * val)) v : find k c = Some v -> key_eqb k k = true.
Proof. intros H. destruct (find_in _ _ _ H) as (k' & _ & E). eapply key_refl_of; exact E. Qed.

Lemma find_looked G s k v : sound G s -> find k (t_glyphs s) = Some v -> looked G k v.
Proof.
  intros SO H. destruct (find_in _ _ _ H) as (k' & I & E). destruct (SO _ _ I) as (m & Gm & V).
  unfold looked. rewrite (key_refl_of _ _ E).
  destruct k as [sy ft dp], k' as [sy' ft' dp']. cbn [k_sym k_font k_dpi] in *.
  assert (sy = sy').
  { unfold key_eqb in E. cbn [k_sym] in E. apply andb_true_iff in E as [E _]. apply andb_true_iff in E as [E _].
    now apply String.eqb_eq in E. }
  subst sy'. exists ft', dp', m. auto.
Qed.

(** A glyph that can be made for the symbol in a font of this type. *)
Definition makeable (G : bool -> Prop) (sym : string) (typ : string) : Prop :=
  exists ft dpi m v, f_type ft = typ /\ G m /\ glyph_val sf fnts sym ft dpi m = LOk v.

Lemma get_info_ok (G : bool -> Prop) sym ft dpi m s v s' : G m -> sound G s ->
  get_info sf fnts sym ft dpi m s = (LOk v, s') ->
  sound G s' /\ ext s s' /\ t_canvas s' = t_canvas s /\ looked G (mk_key sym ft dpi) v /\
  (key_eqb (mk_key sym ft dpi) (mk_key sym ft dpi) = true -> find (mk_key sym ft dpi) (t_glyphs s') = Some v) /\
  (forall w, find (mk_key sym ft dpi) (t_glyphs s) = Some w -> v = w) /\
  makeable G sym (f_type ft).
Proof.
  intros Gm SO E.
  assert (X : ext s s') by (replace s' with (snd (get_info sf fnts sym ft dpi m s)) by (now rewrite E); apply get_info_ext; exact EL).
  assert (C : t_canvas s' = t_canvas s) by (replace s' with (snd (get_info sf fnts sym ft dpi m s)) by (now rewrite E); apply get_info_canvas).
  unfold get_info in E. destruct (find (mk_key sym ft dpi) (t_glyphs s)) as [w|] eqn:F0.
  - injection E as <- <-. split; [exact SO|]. split; [exact X|]. split; [exact C|].
    split; [eapply find_looked; eassumption|]. split; [intros _; exact F0|]. split; [intros w' [= <-]; reflexivity|].
    pose proof (find_looked _ _ _ _ SO F0) as L. unfold looked in L. rewrite (find_refl _ _ _ F0) in L.
    destruct L as (ft' & dpi' & m' & K & Gm' & V). exists ft', dpi', m', w. split; [|auto].
    unfold key_eqb, font_eqb in K. cbn [k_sym k_font k_dpi] in K. rewrite !andb_true_iff, !String.eqb_eq in K.
    symmetry. apply K.
  - destruct (glyph_val sf fnts sym ft dpi m) as [w|e] eqn:GV; [|discriminate E].
    cbn [find] in E.
    assert (SO' : sound G s').
    { intros k u I. destruct (key_eqb _ _) in E; injection E as _ <-; destruct I as [[= <- <-]|I]; eauto. }
    destruct (key_eqb (mk_key sym ft dpi) (mk_key sym ft dpi)) eqn:KR.
    + injection E as <- <-. split; [exact SO'|]. split; [exact X|]. split; [exact C|]. split.
      * unfold looked. rewrite KR. cbn [k_sym]. exists ft, dpi, m. auto.
      * split; [intros _; cbn [t_glyphs find]; now rewrite KR|]. split; [discriminate|]. exists ft, dpi, m, w. auto.
    + rewrite F0 in E. injection E as <- <-. split; [exact SO'|]. split; [exact X|]. split; [exact C|]. split.
      * unfold looked. now rewrite KR.
      * split; [discriminate|]. split; [discriminate|]. exists ft, dpi, m, w. auto.
Qed.

(** ** Drawing *)

(** The glyph shown for a request. *)
Definition shown (G : bool -> Prop) (s : ttf) (e : event) (o : op) : Prop :=
  match e with
  | EGlyph x y ft sym dpi =>
    exists v, o = GlyphOp x y (glyph_of v) /\ looked G (mk_key sym ft dpi) v /\
              (forall w, find (mk_key sym ft dpi) (t_glyphs s) = Some w -> v = w)
  | ERect x1 y1 x2 y2 => o = RectOp x1 y1 x2 y2
  end.

Lemma shown_back G s0 s e o : ext s0 s -> shown G s e o -> shown G s0 e o.
Proof. intros X. destruct e; cbn; [|auto]. intros (v & E & L & H). exists v. auto. Qed.

Lemma draw_ok (G : bool -> Prop) e s s' : G true -> sound G s -> draw sf fnts e s = (LOk tt, s') ->
  sound G s' /\ ext s s' /\ exists o, t_canvas s' = t_canvas s ++ [o] /\ shown G s e o.
Proof.
  intros Gt SO E. destruct e as [x y ft sym dpi|x1 y1 x2 y2]; cbn [draw] in E.
  - unfold render_glyph, cbind in E. destruct (get_info sf fnts sym ft dpi true s) as [[v|e] s1] eqn:GI; [|discriminate E].
    injection E as <-. destruct (get_info_ok G _ _ _ _ _ _ _ Gt SO GI) as (S1 & X1 & C1 & L1 & _ & W1 & _).
    split; [exact S1|]. split; [exact X1|]. cbn [t_canvas]. unfold cnv_glyph. rewrite C1. eexists. split; [reflexivity|].
    exists v. repeat split; assumption.
  - injection E as <-. split; [exact SO|]. split; [intros k v H; exact H|]. eexists. split; [reflexivity|]. reflexivity.
Qed.
Lemma draw_all_ok (G : bool -> Prop) es : forall s s', G true -> sound G s -> draw_all sf fnts es s = (LOk tt, s') ->
  sound G s' /\ ext s s' /\ exists ops, t_canvas s' = t_canvas s ++ ops /\ Forall2 (shown G s) es ops.
Proof.
  induction es as [|e es IH]; intros s s' Gt SO E; cbn [draw_all] in E.
  - injection E as <-. split; [exact SO|]. split; [apply ext_refl|]. exists []. rewrite app_nil_r. auto.
  - unfold cbind in E. destruct (draw sf fnts e s) as [[[]|er] s1] eqn:D; [|discriminate E].
    destruct (draw_ok G _ _ _ Gt SO D) as (S1 & X1 & o & C1 & H1).
    destruct (IH _ _ Gt S1 E) as (S2 & X2 & ops & C2 & H2).
    split; [exact S2|]. split; [eapply ext_trans; eassumption|]. exists (o :: ops).
    rewrite C2, C1, <- app_assoc. split; [reflexivity|]. constructor; [exact H1|].
    clear -X1 H2. induction H2; constructor; [|assumption]. eapply shown_back; eassumption.
Qed.

(** When drawing does not panic: the glyph is in the cache or can be made. *)
Definition drawable (s : ttf) (e : event) : Prop :=
  match e with
  | EGlyph x y ft sym dpi =>
    (exists v, find (mk_key sym ft dpi) (t_glyphs s) = Some v) \/ (exists v, glyph_val sf fnts sym ft dpi true = LOk v)
  | ERect _ _ _ _ => True
  end.
Lemma drawable_mono s s' e : ext s s' -> drawable s e -> drawable s' e.
Proof. intros X. destruct e; cbn; [|auto]. intros [(v & H)|H]; [left; exists v; auto|auto]. Qed.
Lemma draw_runs e s : drawable s e -> exists s', draw sf fnts e s = (LOk tt, s') /\ ext s s'.
Proof.
  destruct e as [x y ft sym dpi|x1 y1 x2 y2]; cbn [draw drawable]; intros H.
  - unfold render_glyph, cbind. pose proof (get_info_ext EL sf fnts sym ft dpi true s) as X.
    destruct (get_info sf fnts sym ft dpi true s) as [[v|e] s1] eqn:GI.
    + eexists. split; [reflexivity|]. exact X.
    + exfalso. unfold get_info in GI. destruct (find _ _) as [w|] eqn:F0; [discriminate GI|].
      destruct H as [(w & H)|(w & H)]; [discriminate H|]. rewrite H in GI. discriminate GI.
  - eexists. split; [reflexivity|]. intros k v H'. exact H'.
Qed.
Lemma draw_all_runs es : forall s, Forall (drawable s) es -> exists s', draw_all sf fnts es s = (LOk tt, s').
Proof.
  induction es as [|e es IH]; intros s H; cbn [draw_all]; [eexists; reflexivity|].
  inversion H as [|? ? H1 H2]; subst. destruct (draw_runs e s H1) as (s1 & E1 & X1).
  unfold cbind. rewrite E1. apply IH. eapply Forall_impl; [|exact H2]. intros e'. now apply drawable_mono.
Qed.

(** ** The backend calls made by the layout *)
Lemma to_M_ok {X} (m : @call A Fnt X) s x s' : to_M m s = LOk (x, s') -> m s = (LOk x, s').
Proof. unfold to_M. destruct (m s) as [[y|e] s1]; intros H; inversion H; reflexivity. Qed.

Lemma metrics_ok (G : bool -> Prop) sym ft dpi m s me s' : G m -> sound G s ->
  be_metrics (ttf_backend sf fnts) sym ft dpi m s = LOk (me, s') ->
  sound G s' /\ ext s s' /\ t_canvas s' = t_canvas s /\
  exists v, me = v_met v /\ looked G (mk_key sym ft dpi) v /\
    (key_eqb (mk_key sym ft dpi) (mk_key sym ft dpi) = true -> find (mk_key sym ft dpi) (t_glyphs s') = Some v) /\
    makeable G sym (f_type ft).
Proof.
  intros Gm SO E. cbn [be_metrics ttf_backend] in E. apply to_M_ok in E. unfold metrics_of, cbind in E.
  destruct (get_info sf fnts sym ft dpi m s) as [[v|e] s1] eqn:GI; [|discriminate E]. injection E as <- <-.
  destruct (get_info_ok G _ _ _ _ _ _ _ Gm SO GI) as (S1 & X1 & C1 & L1 & F1 & _ & K1).
  split; [exact S1|]. split; [exact X1|]. split; [exact C1|]. exists v. auto.
Qed.
Lemma kern_ok (G : bool -> Prop) f1 s1 f2 s2 dpi s x s' : G true -> sound G s ->
  be_kern (ttf_backend sf fnts) f1 s1 f2 s2 dpi s = LOk (x, s') -> sound G s' /\ ext s s' /\ t_canvas s' = t_canvas s.
Proof.
  intros Gm SO E. cbn [be_kern ttf_backend] in E. apply to_M_ok in E. unfold kern in E.
  destruct (_ && _); [|injection E as _ <-; repeat split; [exact SO|apply ext_refl]].
  unfold cbind in E.
  destruct (get_info sf fnts s1 f1 dpi true s) as [[v|e] t1] eqn:G1; [|discriminate E].
  destruct (get_info_ok G _ _ _ _ _ _ _ Gm SO G1) as (S1 & X1 & C1 & _).
  destruct (get_info sf fnts s2 f2 dpi true t1) as [[v2|e] t2] eqn:G2; [|discriminate E].
  destruct (get_info_ok G _ _ _ _ _ _ _ Gm S1 G2) as (S2 & X2 & C2 & _).
  unfold cret in E. injection E as _ <-. split; [exact S2|]. split; [eapply ext_trans; eassumption|]. congruence.
Qed.
Lemma xheight_ok ft dpi s x s' : be_xheight (ttf_backend sf fnts) ft dpi s = LOk (x, s') -> s' = s.
Proof. intros E. cbn [be_xheight ttf_backend] in E. apply to_M_ok in E. unfold xheight, cret in E. now injection E. Qed.
Lemma under_ok ft dpi s x s' : be_underline (ttf_backend sf fnts) ft dpi s = LOk (x, s') -> s' = s.
Proof. intros E. cbn [be_underline ttf_backend] in E. now apply ret_ok in E as [_ ->]. Qed.

(** What holds of each character of the layout.  [c_size] counts how often it
    was shrunk, downwards from 0; [d] is the resolution. *)
Definition char_key (c : tchar) : key := mk_key (c_sym c) (c_font c) (c_dpi c).
Definition measured (G : bool -> Prop) (d : F) (s : ttf) (c : tchar) : Prop :=
  c_size c <= 0 /\ c_dpi c = d /\ makeable G (c_sym c) (f_type (c_font c)) /\
  (c_size c = 0 ->
    (key_eqb (char_key c) (char_key c) = true -> exists v, find (char_key c) (t_glyphs s) = Some v /\ v_met v = c_metrics c) /\
    (key_eqb (char_key c) (char_key c) = false -> c_metrics c = met0)).

(** The invariant of the layout. *)
Definition clean (G : bool -> Prop) (s : ttf) : Prop := sound G s /\ t_canvas s = new_canvas.

Lemma layout_rules (G : bool -> Prop) d : G true ->
  rules (ttf_backend sf fnts) (clean G) ext G (fun st => st_dpi st = d) (measured G d).
Proof.
  intros Gt. constructor.
  - apply ext_refl.
  - apply ext_trans.
  - intros s s' c X (H1 & H2 & H3 & H4). split; [exact H1|]. split; [exact H2|]. split; [exact H3|].
    intros Z. destruct (H4 Z) as [H5 H6]. split; [|exact H6]. intros K. destruct (H5 K) as (v & V & M). exists v. auto.
  - exact Gt.
  - intros st t H. exact H.
  - intros st f H. exact H.
  - intros s sym ft dpi m x s' [H1 H2] Gm E.
    destruct (metrics_ok G _ _ _ _ _ _ _ Gm H1 E) as (S1 & X1 & C1 & _). split; [|exact X1]. split; [exact S1|congruence].
  - intros s c n x s' [H1 H2] _ _ E.
    destruct (kern_ok G _ _ _ _ _ _ _ _ Gt H1 E) as (S1 & X1 & C1). split; [|exact X1]. split; [exact S1|congruence].
  - intros s ft dpi x s' H E. apply xheight_ok in E as ->. split; [exact H|apply ext_refl].
  - intros s ft dpi x s' H E. apply under_ok in E as ->. split; [exact H|apply ext_refl].
  - intros s sym st m c s' [H1 H2] Gm HN E. unfold new_char in E. apply bind_ok in E as (me & s1 & E1 & E2).
    apply ret_ok in E2 as [-> ->].
    destruct (metrics_ok G _ _ _ _ _ _ _ Gm H1 E1) as (S1 & X1 & C1 & v & -> & L1 & F1 & K1).
    split; [split; [exact S1|congruence]|]. split; [exact X1|].
    unfold measured, char_key. cbn [c_size c_sym c_font c_dpi c_metrics].
    split; [lia|]. split; [exact HN|]. split; [exact K1|]. intros _. split.
    + intros K. exists v. split; [exact (F1 K)|reflexivity].
    + intros K. unfold looked in L1. rewrite K in L1. rewrite L1. reflexivity.
  - intros s c (H1 & H2 & H3 & H4). unfold char_shrink. destruct (_ <? _);
      unfold measured, scale_char, char_size; cbn [c_size c_sym c_font c_dpi c_metrics scale_font f_type];
      (split; [lia|]; split; [exact H2|]; split; [exact H3|]; intros; lia).
Qed.

(** From types to fonts: a glyph that can be made at one size can be made at all. *)
Lemma makeable_val sym ft dpi : makeable (fun m => m = true) sym (f_type ft) ->
  exists v, glyph_val sf fnts sym ft dpi true = LOk v.
Proof.
  intros (ft' & dpi' & m & v & T & -> & V). destruct ft as [nm ty sz], ft' as [nm' ty' sz']. cbn [f_type] in T. subst ty'.
  change (glyph_val sf fnts sym (mk_font nm' ty sz') dpi' true) with (glyph_val sf fnts sym (mk_font nm ty sz') dpi' true) in V.
  destruct (val_sizes sf fnts sym nm ty true sz' dpi' sz dpi v V) as (v' & V' & _). eauto.
Qed.

(** The characters in the order in which they are drawn. *)
Fixpoint letters (t : tnode) : list tchar :=
  match t with
  | TL _ _ _ _ l =>
    flat_map (fun y => match y with TChar c | TAccent c => [c] | TL (KHList | KVList) _ _ _ _ => letters y | _ => [] end) l
  | _ => []
  end.
Lemma letters_chars t : chars t = map (fun c => (c_font c, c_sym c, c_dpi c)) (letters t).
Proof.
  induction t as [b|c|c|b|g|sz w|k b sh gs l IH] using tnode_ind'; try reflexivity.
  cbn [chars letters]. induction IH as [|y l Hy _ IHl]; [reflexivity|]. cbn [flat_map]. rewrite map_app, <- IHl. f_equal.
  destruct y as [b'|c'|c'|b'|g'|sz' w'|k' b' sh' gs' xs]; try reflexivity. destruct k'; try reflexivity; exact Hy.
Qed.
Lemma tq_letters Q (s : ttf) t c : tq Q s t -> In c (letters t) -> Q s c.
Proof.
  induction t as [b|c'|c'|b|g|sz w|k b sh gs l IH] using tnode_ind'; cbn [letters]; try contradiction.
  cbn [tq]. intros T I. apply in_flat_map in I as (y & Iy & Ic).
  assert (Ty : tq Q s y).
  { clear -T Iy. induction l as [|x l IHl]; [destruct Iy|]. destruct T as [T1 T2]. destruct Iy as [<-|Iy]; auto. }
  rewrite Forall_forall in IH. specialize (IH y Iy).
  destruct y as [b'|c'|c'|b'|g'|sz' w'|k' b' sh' gs' xs]; try contradiction.
  - destruct Ic as [<-|[]]. exact Ty.
  - destruct k'; try contradiction; exact (IH Ty Ic).
Qed.

(** Glyph operations of a canvas. *)
Definition op_glyphs (l : list op) : list (@glyph A Fnt) :=
  flat_map (fun o => match o with GlyphOp _ _ g => [g] | RectOp _ _ _ _ => [] end) l.
Lemma shown_glyphs G s es ops : Forall2 (shown G s) es ops ->
  Forall2 (fun q g => exists v, g = glyph_of v /\ looked G (mk_key (snd (fst q)) (fst (fst q)) (snd q)) v /\
             forall w, find (mk_key (snd (fst q)) (fst (fst q)) (snd q)) (t_glyphs s) = Some w -> v = w)
          (glyphs es) (op_glyphs ops).
Proof.
  induction 1 as [|e o es ops H _ IH]; [constructor|]. unfold glyphs, op_glyphs in *. cbn [flat_map].
  destruct e as [x y ft sym dpi|x1 y1 x2 y2]; cbn [shown] in H.
  - destruct H as (v & -> & L & W). cbn [app]. constructor; [|exact IH]. exists v. cbn [fst snd]. auto.
  - subst o. exact IH.
Qed.

Lemma drawable_all s es : (forall q, In q (glyphs es) -> drawable s (EGlyph (@f0 A) (@f0 A) (fst (fst q)) (snd (fst q)) (snd q))) ->
  Forall (drawable s) es.
Proof.
  intros H. apply Forall_forall. intros e I. destruct e as [x y ft sym dpi|]; [|exact Logic.I].
  apply (H (ft, sym, dpi)). unfold glyphs. apply in_flat_map. eexists. split; [exact I|]. now left.
Qed.
End Facts.
