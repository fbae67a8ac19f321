(** C64-C66: the size of a typeset expression (SizeSpec.v). *)
From Coq Require Import ZArith String Ascii List Bool Lia QArith Qcanon Lqa.
From Verif Require Import Utf8 Token Ast SetTable Parser Symbols PropSymbols Arith Exact ExactFacts Box PropParse
  Mtex PropRead GeomSpec GeomFacts GeomFacts2 PropGeom ReadSpec TreeSpec MtexFacts SizeSpec SizeFacts.
Import ListNotations.
Local Open Scope string_scope.
Local Open Scope list_scope.
Local Open Scope Z_scope.

(** A node [t] of width, height and depth [e]. *)
Definition sized (t : @Box.tnode exact) (e : ext) : Prop :=
  t_width t = Fin (x_w e) /\ t_height t = Fin (x_h e) /\ t_depth t = Fin (x_d e).

(** The box made for an expression has the size that follows from the expression and
    the measurements of its glyphs. *)
Theorem C64_size : forall (S : Type) (be : @backend exact S) range parse_float uni_letter (M : measures) expr l (size dpi : Qc) s t err s',
  fair range -> measured_by M size dpi be parse_float ->
  parse_expr uni_letter expr = Ok l ->
  mtex_parse uni_letter range be parse_float expr (Fin size) (Fin dpi) s = Some (LOk ((t, err), s')) ->
  sized t (size_of_expression M expr size dpi l).
Proof.
  intros * FR MB P E. apply parse_inv in E as (l0 & P' & E). rewrite P in P'. injection P' as <-.
  apply (typeset_size range be parse_float M expr size dpi FR MB) in E as (b & gs & l' & -> & _ & W & H & D & _).
  split; [exact W|split; [exact H|exact D]].
Qed.

(** ** Rows *)
Lemma qmax_assoc a b c : qmax a (qmax b c) = qmax (qmax a b) c.
Proof.
  unfold qmax. destruct (qltb c b) eqn:BC, (qltb b a) eqn:AB; rewrite ?BC, ?AB; try reflexivity.
  - destruct (qltb c a) eqn:AC; [reflexivity|]. apply qltb_iff in BC, AB. apply qltb_false in AC. exfalso. qc.
  - destruct (qltb c a) eqn:AC; [|reflexivity]. apply qltb_iff in AC. apply qltb_false in BC, AB. exfalso. qc.
Qed.
Lemma fold_qmax_out l a b : fold_left qmax l (qmax a b) = qmax a (fold_left qmax l b).
Proof. revert a b. induction l as [|x l IH]; intros; cbn [fold_left]; [reflexivity|]. rewrite <- qmax_assoc. apply IH. Qed.
Lemma fold_qmax_app l1 l2 : fold_left qmax (l1 ++ l2) 0%Qc = qmax (fold_left qmax l1 0%Qc) (fold_left qmax l2 0%Qc).
Proof.
  rewrite fold_left_app. rewrite <- fold_qmax_out. now rewrite qmax_0 by apply fold_qmax_ge.
Qed.

(** The kerning where two rows meet. *)
Definition seam (M : measures) (l1 l2 : list piece) : Qc :=
  match rev l1, l2 with
  | Glyph s1 f1 _ :: _, Glyph s2 f2 _ :: _ => pair M f1 s1 f2 s2
  | _, _ => 0%Qc
  end.
Lemma seam_cons M x y l1 l2 : seam M (x :: y :: l1) l2 = seam M (y :: l1) l2.
Proof.
  unfold seam. change (x :: y :: l1) with ([x] ++ y :: l1). rewrite rev_app_distr.
  destruct (rev (y :: l1)) as [|z r] eqn:E; [|reflexivity].
  apply (f_equal (@length _)) in E. rewrite rev_length in E. discriminate E.
Qed.
Lemma row_width_app M l1 l2 : row_width M (l1 ++ l2) = (row_width M l1 + seam M l1 l2 + row_width M l2)%Qc.
Proof.
  induction l1 as [|x l1 IH]; [unfold seam; cbn [rev row_width app]; ring|].
  destruct l1 as [|y l1].
  - unfold seam. cbn [rev app row_width]. destruct x, l2 as [|[] ?]; ring.
  - rewrite seam_cons. change ((x :: y :: l1) ++ l2) with (x :: (y :: l1) ++ l2).
    destruct x as [s f m|e].
    + change (row_width M (Glyph s f m :: (y :: l1) ++ l2)) with
        (adv M s f m + match y with Glyph s' f' _ => pair M f s f' s' | _ => 0 end + row_width M ((y :: l1) ++ l2))%Qc.
      change (row_width M (Glyph s f m :: y :: l1)) with
        (adv M s f m + match y with Glyph s' f' _ => pair M f s f' s' | _ => 0 end + row_width M (y :: l1))%Qc.
      rewrite IH. ring.
    + change (row_width M (Solid e :: (y :: l1) ++ l2)) with (x_w e + row_width M ((y :: l1) ++ l2))%Qc.
      change (row_width M (Solid e :: y :: l1)) with (x_w e + row_width M (y :: l1))%Qc. rewrite IH. ring.
Qed.
Definition beside (k : Qc) (a b : ext) : ext := mk_ext (x_w a + k + x_w b)%Qc (qmax (x_h a) (x_h b)) (qmax (x_d a) (x_d b)).
Lemma row_app M l1 l2 : row M (l1 ++ l2) = beside (seam M l1 l2) (row M l1) (row M l2).
Proof. unfold row, beside. cbn [x_w x_h x_d]. now rewrite row_width_app, !map_app, !fold_qmax_app. Qed.

(** The size of two parts next to each other: the widths add up, with the kerning of
    the glyphs that meet; the taller and the deeper part count. *)
Theorem C65_parts : forall (S : Type) (be : @backend exact S) range parse_float uni_letter (M : measures) expr l1 l2 (size dpi : Qc) s t err s',
  fair range -> measured_by M size dpi be parse_float ->
  parse_expr uni_letter expr = Ok (l1 ++ l2) ->
  mtex_parse uni_letter range be parse_float expr (Fin size) (Fin dpi) s = Some (LOk ((t, err), s')) ->
  let size_of := size_of_expression M expr size dpi in
  let inside := flat_map (pieces M expr size dpi true false "rm") in
  sized t (beside (seam M (inside l1) (inside l2)) (size_of l1) (size_of l2)).
Proof.
  intros * FR MB P E size_of inside. pose proof (C64_size _ _ _ _ _ _ _ _ _ _ _ _ _ _ FR MB P E) as H.
  unfold size_of, inside, size_of_expression in *. rewrite flat_map_app, row_app in H. exact H.
Qed.
(** A space between two parts adds its width and prevents kerning. *)
Lemma space_pieces M expr size dpi w m typ p name n d args : In (name, (n, d)) space_ems ->
  pieces M expr size dpi w m typ (NMacro (Some (p, name)) args) = [Solid (gap (em_over M size n d))].
Proof.
  intros I. cbn [pieces].
  assert (X : one_of spacing_names name = true /\ space_of M size name = em_over M size n d).
  { cbn [In space_ems] in I.
    repeat (destruct I as [I|I]; [assert (E1 : name = fst (name, (n, d))) by reflexivity; assert (E2 : n = fst (snd (name, (n, d)))) by reflexivity;
      assert (E3 : d = snd (snd (name, (n, d)))) by reflexivity; rewrite <- I in E1, E2, E3; cbn [fst snd] in E1, E2, E3; subst name n d; split; reflexivity|]).
    destruct I. }
  destruct X as [X1 X2]. rewrite X1, X2. reflexivity.
Qed.
Lemma row_gap M g x y : row M (x ++ Solid (gap g) :: y) = beside g (row M x) (row M y).
Proof.
  rewrite row_app. replace (seam M x (Solid (gap g) :: y)) with 0%Qc.
  2:{ unfold seam. now destruct (rev x) as [|[] ?]. }
  unfold beside. cbn [row row_width map tall deep gap x_w x_h x_d fold_left].
  rewrite (qmax_l 0 0) by apply Qcle_refl. f_equal. ring.
Qed.
Theorem C65_space : forall (S : Type) (be : @backend exact S) range parse_float uni_letter (M : measures) expr p name n d args l1 l2 (size dpi : Qc) s t err s',
  fair range -> measured_by M size dpi be parse_float ->
  In (name, (n, d)) space_ems ->
  parse_expr uni_letter expr = Ok (l1 ++ NMacro (Some (p, name)) args :: l2) ->
  mtex_parse uni_letter range be parse_float expr (Fin size) (Fin dpi) s = Some (LOk ((t, err), s')) ->
  let size_of := size_of_expression M expr size dpi in
  sized t (beside (em_over M size n d) (size_of l1) (size_of l2)).
Proof.
  intros * FR MB I P E size_of. pose proof (C64_size _ _ _ _ _ _ _ _ _ _ _ _ _ _ FR MB P E) as H.
  unfold size_of, size_of_expression in *. rewrite flat_map_app in H. cbn [flat_map] in H.
  rewrite (space_pieces _ _ _ _ _ _ _ _ _ _ _ _ I) in H. cbn [app] in H. now rewrite row_gap in H.
Qed.
(** The same within a formula. *)
Theorem C65_space_math : forall (S : Type) (be : @backend exact S) range parse_float uni_letter (M : measures) expr dl a p name n d args l1 l2 b (size dpi : Qc) s t err s',
  fair range -> measured_by M size dpi be parse_float ->
  In (name, (n, d)) space_ems ->
  parse_expr uni_letter expr = Ok [NMath dl a (l1 ++ NMacro (Some (p, name)) args :: l2) b] ->
  mtex_parse uni_letter range be parse_float expr (Fin size) (Fin dpi) s = Some (LOk ((t, err), s')) ->
  let size_of l := row M (flat_map (pieces M expr size dpi false true "it") l) in
  sized t (beside (em_over M size n d) (size_of l1) (size_of l2)).
Proof.
  intros * FR MB I P E size_of. pose proof (C64_size _ _ _ _ _ _ _ _ _ _ _ _ _ _ FR MB P E) as H.
  unfold size_of, size_of_expression in *. cbn [flat_map pieces] in H. rewrite app_nil_r, flat_map_app in H. cbn [flat_map] in H.
  rewrite (space_pieces _ _ _ _ _ _ _ _ _ _ _ _ I) in H. cbn [app] in H. now rewrite row_gap in H.
Qed.

(** ** Scaling *)
(** [M'] measures everything [c * r] times as large as [M] when the font is [c] times
    as large; the numbers are the same. *)
Definition enlarged (c r : Qc) (M M' : measures) : Prop :=
  (forall sym name typ z m, let f := mk_font name typ (Fin z) in let f' := mk_font name typ (Fin (c * z)) in
     adv M' sym f' m = c * r * adv M sym f m /\ up M' sym f' m = c * r * up M sym f m /\
     down M' sym f' m = c * r * down M sym f m /\ mid M' sym f' m = c * r * mid M sym f m)%Qc /\
  (forall n1 t1 z1 s1 n2 t2 z2 s2,
     pair M' (mk_font n1 t1 (Fin (c * z1))) s1 (mk_font n2 t2 (Fin (c * z2))) s2 =
     c * r * pair M (mk_font n1 t1 (Fin z1)) s1 (mk_font n2 t2 (Fin z2)) s2)%Qc /\
  (forall name typ z, line M' (mk_font name typ (Fin (c * z))) = c * r * line M (mk_font name typ (Fin z)))%Qc /\
  (forall v, number M' v = number M v).

Section Scale.
Variables (M M' : measures) (c r : Qc).
Hypothesis EN : enlarged c r M M'.
Hypothesis KP : (0 < c * r)%Qc.
Variables (expr : string) (size dpi : Qc).
Notation k := (c * r)%Qc.
Inductive prel : piece -> piece -> Prop :=
| PG s name typ z m : prel (Glyph s (mk_font name typ (Fin z)) m) (Glyph s (mk_font name typ (Fin (c * z))) m)
| PS e e' : e' = scale k e -> prel (Solid e) (Solid e').

Lemma qmax_scale a b : qmax (k * a) (k * b) = (k * qmax a b)%Qc.
Proof.
  unfold qmax. destruct (qltb b a) eqn:E1, (qltb (k * b) (k * a)) eqn:E2; try reflexivity.
  - apply qltb_iff in E1. apply qltb_false in E2. exfalso. apply (Qcle_not_lt _ _ E2).
    rewrite (Qcmult_comm k b), (Qcmult_comm k a). now apply Qcmult_lt_compat_r.
  - apply qltb_false in E1. apply qltb_iff in E2. exfalso. apply (Qclt_not_le _ _ E2).
    rewrite (Qcmult_comm k b), (Qcmult_comm k a). apply Qcmult_le_compat_r; [exact E1|now apply Qclt_le_weak].
Qed.
Lemma qmax0_scale a : qmax 0 (k * a) = (k * qmax 0 a)%Qc.
Proof. rewrite <- qmax_scale. f_equal. ring. Qed.
Lemma qmin_scale a b : qmin (k * a) (k * b) = (k * qmin a b)%Qc.
Proof.
  unfold qmin. destruct (qltb a b) eqn:E1, (qltb (k * a) (k * b)) eqn:E2; try reflexivity.
  - apply qltb_iff in E1. apply qltb_false in E2. exfalso. apply (Qcle_not_lt _ _ E2).
    rewrite (Qcmult_comm k b), (Qcmult_comm k a). now apply Qcmult_lt_compat_r.
  - apply qltb_false in E1. apply qltb_iff in E2. exfalso. apply (Qclt_not_le _ _ E2).
    rewrite (Qcmult_comm k b), (Qcmult_comm k a). apply Qcmult_le_compat_r; [exact E1|now apply Qclt_le_weak].
Qed.
Lemma row_scale l l' : Forall2 prel l l' -> row M' l' = scale k (row M l).
Proof.
  destruct EN as (EM & EK & _). intros H. unfold row, scale. cbn [x_w x_h x_d].
  assert (T : forall (f f' : piece -> Qc), (forall p p', prel p p' -> f' p' = (k * f p)%Qc) ->
    forall a, fold_left qmax (map f' l') (k * a)%Qc = (k * fold_left qmax (map f l) a)%Qc).
  { intros f f' Hf. induction H as [|p p' l l' H _ IH]; intros a; cbn [map fold_left]; [reflexivity|].
    rewrite (Hf _ _ H), qmax_scale. apply IH. }
  f_equal.
  - clear T. induction H as [|p p' l l' H HL IH]; [cbn [row_width]; ring|].
    destruct H as [s name typ z m|e e' ->]; cbn [row_width].
    + destruct (EM s name typ z m) as (-> & _). rewrite IH.
      destruct HL as [|? ? ? ? [|] _]; rewrite ?EK; ring.
    + rewrite IH. cbn [scale x_w]. ring.
  - rewrite <- (T (tall M) (tall M')); [f_equal; ring|]. intros p p' []; cbn [tall]; [apply EM|subst; reflexivity].
  - rewrite <- (T (deep M) (deep M')); [f_equal; ring|]. intros p p' []; cbn [deep]; [apply EM|subst; reflexivity].
Qed.
Lemma scale_scale a b e : scale a (scale b e) = scale b (scale a e).
Proof. unfold scale. cbn [x_w x_h x_d]. f_equal; ring. Qed.
Lemma gap_scale w : gap (k * w) = scale k (gap w).
Proof. unfold gap, scale. cbn [x_w x_h x_d]. f_equal; ring. Qed.
Notation face := (face size).
Notation face' := (SizeSpec.face (c * size)).
Lemma k_nz : k <> 0%Qc. Proof. intros E. rewrite E in KP. now apply Qclt_not_eq in KP. Qed.
Lemma delimiter_scale d typ H D : delimiter M' d (face' typ) (k * H) (k * D) = scale k (delimiter M d (face typ) H D).
Proof.
  destruct EN as (EM & _). unfold delimiter, SizeSpec.face.
  destruct (EM d "default" typ size true) as (_ & -> & -> & _).
  set (u := up M d _ true). set (dn := down M d _ true).
  assert (K : ((k * H + k * D) / (k * u + k * dn))%Qc = ((H + D) / (u + dn))%Qc).
  { destruct (Qc_eq_dec (u + dn) 0) as [Z|Z].
    - replace (k * u + k * dn)%Qc with (k * (u + dn))%Qc by ring. rewrite Z. replace (k * 0)%Qc with 0%Qc by ring.
      unfold Qcdiv. replace (/ 0)%Qc with 0%Qc by (apply Qc_is_canon; reflexivity). ring.
    - replace (k * u + k * dn)%Qc with (k * (u + dn))%Qc by ring. replace (k * H + k * D)%Qc with (k * (H + D))%Qc by ring.
      set (x := (u + dn)%Qc) in *. pose proof k_nz as KN. set (kk := (c * r)%Qc) in *. field. split; assumption. }
  rewrite K. set (q := ((H + D) / (u + dn))%Qc).
  unfold resize. cbn [f_name f_type f_size]. fins.
  replace (c * size * q)%Qc with (c * (size * q))%Qc by ring.
  destruct (EM d "default" typ (size * q)%Qc true) as (-> & -> & -> & _).
  unfold scale. cbn [x_w x_h x_d].
  rewrite !qmax0_scale. f_equal; ring.
Qed.

Lemma fraction_scale th q ax n d :
  fraction M' (k * th) (k * q) (k * ax) (scale k n) (scale k d) = scale k (fraction M th q ax n d).
Proof.
  unfold fraction. apply row_scale. constructor; [constructor|constructor; [constructor|constructor]].
  - unfold scale. cbn [x_w x_h x_d]. rewrite qmax_scale, qmax0_scale. f_equal; ring.
  - rewrite <- gap_scale. f_equal. ring.
Qed.
Lemma binomial_scale th ax typ n d :
  binomial M' (k * th) (k * ax) (face' typ) (scale k n) (scale k d) = scale k (binomial M th ax (face typ) n d).
Proof.
  unfold binomial. cbv zeta. assert (Z : (0 = k * 0)%Qc) by ring.
  assert (FS : fraction M' (k * th) 0 (k * ax) (scale k n) (scale k d) = scale k (fraction M th 0 ax n d)) by (rewrite Z at 1; apply fraction_scale).
  rewrite FS. set (b := fraction M th 0 ax n d). cbn [scale x_h x_d]. rewrite !delimiter_scale.
  apply row_scale. repeat constructor.
Qed.
Lemma overline_scale th q b : overline M' (k * th) (k * q) (scale k b) = scale k (overline M th q b).
Proof.
  unfold overline. apply row_scale. repeat constructor. unfold scale. cbn [x_w x_h x_d]. rewrite qmax0_scale. f_equal; ring.
Qed.
Lemma radical_scale th q typ i b :
  radical M' (k * th) (k * q) (face' typ) (option_map (scale k) i) (scale k b) = scale k (radical M th q (face typ) i b).
Proof.
  unfold radical. cbn [scale x_h x_d].
  replace (k * x_h b + (k * th + k * th + k * th + k * th + k * th))%Qc with (k * (x_h b + (th + th + th + th + th)))%Qc by ring.
  rewrite delimiter_scale. set (cc := delimiter M _ _ _ _).
  apply row_scale. constructor; [constructor|constructor; [constructor|constructor; [constructor; reflexivity|constructor; [constructor|constructor]]]].
  - destruct i as [i|]; cbn [option_map]; unfold scale, gap; cbn [x_w x_h x_d]; f_equal; try ring; rewrite <- qmax0_scale; f_equal; ring.
  - rewrite <- gap_scale. f_equal. cbn [scale x_w]. ring.
  - unfold scale. cbn [x_w x_h x_d]. rewrite qmin_scale. f_equal; try ring. rewrite <- qmax0_scale. f_equal. ring.
Qed.
Lemma em_scale : em M' (c * size) = (k * em M size)%Qc. Proof. destruct EN as (EM & _). apply EM. Qed.
Lemma em_over_scale n d : em_over M' (c * size) n d = (k * em_over M size n d)%Qc.
Proof. unfold em_over. rewrite em_scale. ring. Qed.
Lemma gap_em n d : prel (Solid (gap (em_over M size n d))) (Solid (gap (em_over M' (c * size) n d))).
Proof. constructor. rewrite em_over_scale. apply gap_scale. Qed.
Lemma glyph_rel s typ m : prel (Glyph s (face typ) m) (Glyph s (face' typ) m). Proof. constructor. Qed.
Lemma symbol_rel m typ s p : Forall2 prel (symbol M expr size m typ s p) (symbol M' expr (c * size) m typ s p).
Proof.
  assert (ONE : forall x y, prel x y -> Forall2 prel [x] [y]) by (intros; constructor; [assumption|constructor]).
  assert (SOLID : forall l l', Forall2 prel l l' -> Forall2 prel [Solid (row M l)] [Solid (row M' l')]).
  { intros l l' H. apply ONE. constructor. now apply row_scale. }
  unfold symbol.
  repeat match goal with |- context [if ?b then _ else _] => destruct b end;
    first [apply ONE, glyph_rel | apply SOLID; repeat first [apply Forall2_nil | apply Forall2_cons; [first [apply gap_em|apply glyph_rel]|]]].
Qed.
Lemma letters_rel m typ l : Forall2 prel (map (letter size m typ) l) (map (letter (c * size) m typ) l).
Proof. induction l; constructor; [apply glyph_rel|assumption]. Qed.

Lemma pieces_rel n : (forall w m typ, Forall2 prel (pieces M expr size dpi w m typ n) (pieces M' expr (c * size) (r * dpi) w m typ n)) /\
  Forall (fun x => forall w m typ, Forall2 prel (pieces M expr size dpi w m typ x) (pieces M' expr (c * size) (r * dpi) w m typ x)) (list_children n).
Proof.
  set (good := fun n => forall w m typ, Forall2 prel (pieces M expr size dpi w m typ n) (pieces M' expr (c * size) (r * dpi) w m typ n)).
  assert (FL : forall l w m typ, Forall good l -> Forall2 prel (flat_map (pieces M expr size dpi w m typ) l) (flat_map (pieces M' expr (c * size) (r * dpi) w m typ) l)).
  { intros l w m typ. induction 1 as [|x l H _ IH]; cbn [flat_map]; [constructor|]. apply Forall2_app; [apply H|exact IH]. }
  assert (FC : forall l, Forall (fun n => good n /\ Forall good (list_children n)) l -> Forall good l).
  { intros l H. eapply Forall_impl; [|exact H]. cbn. tauto. }
  assert (ONE : forall e e', e' = scale k e -> Forall2 prel [Solid e] [Solid e']) by (intros; constructor; [now constructor|constructor]).
  change (good n /\ Forall good (list_children n)).
  induction n using node_ind'; cbn [list_children]; split; auto; try (apply Forall_nil); try (intros w m typ; apply Forall2_nil).
  - intros [] m typ; cbn [pieces]; [apply FL, FC; assumption|constructor].
  - destruct nm as [[p name]|]; [|intros w m typ; apply Forall2_nil]. intros w m typ.
    assert (Q : forall z, In z l -> Forall good (list_children z)).
    { intros z I. rewrite Forall_forall in H. now destruct (H z I). }
    assert (AR : forall a x b, In (NArg a x b) l -> row M' (flat_map (pieces M' expr (c * size) (r * dpi) true m typ) x) =
      scale k (row M (flat_map (pieces M expr size dpi true m typ) x))).
    { intros a x b I. apply row_scale, FL. exact (Q _ I). }
    assert (AO : forall a x b, In (NOptArg a x b) l -> row M' (flat_map (pieces M' expr (c * size) (r * dpi) true m typ) x) =
      scale k (row M (flat_map (pieces M expr size dpi true m typ) x))).
    { intros a x b I. apply row_scale, FL. exact (Q _ I). }
    assert (TH : line M' (face' typ) = (k * line M (face typ))%Qc) by apply EN.
    assert (AX : axis M' (c * size) = (k * axis M size)%Qc) by (destruct EN as (EM & _); apply EM).
    assert (CL : clearance (c * size) (r * dpi) = (k * clearance size dpi)%Qc) by (unfold clearance; unfold Qcdiv; ring).
    clear H. cbn [pieces].
    destruct (one_of spacing_names name).
    { apply ONE. rewrite <- gap_scale. f_equal. unfold space_of. destruct (find _ _) as [[? [? ?]]|]; [apply em_over_scale|ring]. }
    destruct (String.eqb name "\hspace").
    { destruct l as [|[| | |a x b| | | | | | | |] l]; try apply Forall2_nil. destruct x as [|[] x]; try apply Forall2_nil.
      apply ONE. rewrite <- gap_scale. f_equal. rewrite em_scale. destruct EN as (_ & _ & _ & ->). ring. }
    destruct (one_of FunctionNames_list _).
    { apply ONE, row_scale, letters_rel. }
    destruct (one_of ["\frac"; "\tfrac"] name).
    { destruct l as [|[| | |a1 x1 b1| | | | | | | |] [|[| | |a2 x2 b2| | | | | | | |] l]]; try apply Forall2_nil.
      apply ONE. rewrite (AR a1 x1 b1), (AR a2 x2 b2), TH, AX by (cbn; auto). rewrite !(scale_scale _ k). apply fraction_scale. }
    destruct (String.eqb name "\dfrac").
    { destruct l as [|[| | |a1 x1 b1| | | | | | | |] [|[| | |a2 x2 b2| | | | | | | |] l]]; try apply Forall2_nil.
      apply ONE. rewrite (AR a1 x1 b1), (AR a2 x2 b2), TH, AX by (cbn; auto). apply fraction_scale. }
    destruct (String.eqb name "\binom").
    { destruct l as [|[| | |a1 x1 b1| | | | | | | |] [|[| | |a2 x2 b2| | | | | | | |] l]]; try apply Forall2_nil.
      apply ONE. rewrite (AR a1 x1 b1), (AR a2 x2 b2), TH, AX by (cbn; auto). rewrite !(scale_scale _ k). apply binomial_scale. }
    destruct (String.eqb name "\sqrt").
    { destruct l as [|y1 [|y2 [|y3 l]]]; try apply Forall2_nil.
      - destruct y1; try apply Forall2_nil. apply ONE. rewrite (AR _ _ _ (or_introl eq_refl)), TH, CL. apply (radical_scale _ _ _ None).
      - destruct y1; try apply Forall2_nil; destruct y2; try apply Forall2_nil. apply ONE.
        rewrite (AO _ _ _ (or_introl eq_refl)), (AR _ _ _ (or_intror (or_introl eq_refl))), TH, CL.
        rewrite !(scale_scale _ k). apply (radical_scale _ _ _ (Some _)).
      - destruct y1; try apply Forall2_nil; destruct y2; apply Forall2_nil. }
    destruct (String.eqb name "\overline").
    { destruct l as [|y1 l]; try apply Forall2_nil. destruct y1; try apply Forall2_nil. apply ONE.
      rewrite (AR _ _ _ (or_introl eq_refl)), TH, CL. apply overline_scale. }
    apply symbol_rel.
  - intros w m typ. cbn [pieces]. apply FL, FC. assumption.
  - intros w m typ. cbn [pieces]. apply ONE, row_scale, letters_rel.
  - intros w m typ. cbn [pieces]. induction (letters s) as [|x xs IH]; cbn [flat_map]; [constructor|]. apply Forall2_app; [apply symbol_rel|exact IH].
  - intros w m typ. cbn [pieces]. destruct m.
    + destruct (one_of spacing_names s); [|apply symbol_rel].
      apply ONE. rewrite <- gap_scale. f_equal. unfold space_of. destruct (find _ _) as [[? [? ?]]|]; [apply em_over_scale|ring].
    + constructor; [apply glyph_rel|constructor].
Qed.
Lemma expression_scale l : size_of_expression M' expr (c * size) (r * dpi) l = scale k (size_of_expression M expr size dpi l).
Proof.
  apply row_scale. destruct (pieces_rel (NList l)) as [H _]. exact (H true false "rm").
Qed.
End Scale.

(** With fonts whose measurements grow with the font size and the resolution, an
    expression set [c] times as large at [r] times the resolution comes out [c * r]
    times as large. *)
Theorem C66_scaling : forall (S S' : Type) (be : @backend exact S) (be' : @backend exact S') range range' parse_float parse_float' uni_letter
    (M M' : measures) expr (size dpi c r : Qc) s t err s1 s' t' err' s1',
  fair range -> fair range' -> (0 < c * r)%Qc -> enlarged c r M M' ->
  measured_by M size dpi be parse_float -> measured_by M' (c * size) (r * dpi) be' parse_float' ->
  mtex_parse uni_letter range be parse_float expr (Fin size) (Fin dpi) s = Some (LOk ((t, err), s1)) ->
  mtex_parse uni_letter range' be' parse_float' expr (Fin (c * size)) (Fin (r * dpi)) s' = Some (LOk ((t', err'), s1')) ->
  exists w h d, sized t (mk_ext w h d) /\ sized t' (mk_ext (c * r * w) (c * r * h) (c * r * d)).
Proof.
  intros * FR FR' KP EN MB MB' E E'. destruct (parse_inv _ _ _ _ _ _ _ _ _ _ _ E) as (l & P & _).
  pose proof (C64_size _ _ _ _ _ _ _ _ _ _ _ _ _ _ FR MB P E) as H.
  pose proof (C64_size _ _ _ _ _ _ _ _ _ _ _ _ _ _ FR' MB' P E') as H'.
  rewrite (expression_scale M M' c r EN KP) in H'.
  destruct (size_of_expression M expr size dpi l) as [w h d]. exists w, h, d. split; assumption.
Qed.

(** ** Cases *)
(** The measurements of the font of squares of PropGeom.v: glyphs as wide as the font
    is large, 3/4 of that above and 1/4 below the baseline. *)
Definition pts (f : @Box.font exact) : Qc := match f_size f with Fin z => z | _ => 0%Qc end.
Definition square_measures : measures := mk_measures (fun _ f _ => pts f) (fun _ f _ => pts f * Q2Qc (3 # 4))%Qc (fun _ f _ => pts f * Q2Qc (1 # 4))%Qc
  (fun _ f _ => pts f * Q2Qc (1 # 4))%Qc (fun _ _ _ _ => 0%Qc) (fun f => pts f * Q2Qc (1 # 10))%Qc (fun v => if String.eqb v "2" then Q2Qc 2 else 0%Qc).
Definition two (v : string) : option xq := if String.eqb v "2" then Some (Fin (Q2Qc 2)) else None.
Lemma frat_is n d : @frat exact n (Zpos d) = Fin (Q2Qc (n # d)).
Proof. rewrite frat_fin by discriminate. apply f_equal, Qc_is_canon. unfold Qcdiv. rewrite this_mult. unfold Qcinv. cbn [this Q2Qc].
  rewrite !Qred_correct. unfold Qeq, Qinv, Qmult. cbn. lia. Qed.
Example squares_measured : forall size dpi, (0 < size)%Qc -> measured_by square_measures size dpi squares two.
Proof.
  intros size dpi SP. unfold measured_by. split; [|split; [|split; [|split]]].
  - intros sym f z m s x s' F E. cbn [squares be_metrics be_kern be_underline] in E. apply ret_ok in E as [-> _]. rewrite F.
    cbn [m_adv m_iceberg m_height m_width m_ymax m_ymin]. unfold square_measures, pts. cbn [adv up down mid]. rewrite F.
    rewrite !frat_is. fins. split; [reflexivity|]. split; [reflexivity|].
    split; [apply f_equal, Qc_is_canon; rewrite this_plus, !this_mult; cbn [this Q2Qc]; rewrite !Qred_correct; lra|]. split; [eauto|].
    eexists _, _. split; [reflexivity|]. split; [reflexivity|]. unfold Qcdiv. replace (/ (1 + 1))%Qc with (Q2Qc (1 # 2)) by (apply Qc_is_canon; reflexivity).
    apply Qc_is_canon. rewrite !this_mult, this_plus, this_opp, !this_mult. cbn [this Q2Qc]. rewrite !Qred_correct. lra.
  - intros f1 s1 f2 s2 s x s' E. cbn [squares be_metrics be_kern be_underline] in E. apply ret_ok in E as [-> _]. reflexivity.
  - intros f s x s' F E. cbn [squares be_metrics be_kern be_underline] in E. apply ret_ok in E as [-> _]. rewrite F. unfold square_measures, pts. cbn [line]. rewrite F, frat_is. fins. split; [reflexivity|].
    unfold Qcle, Qclt in *. rewrite this_mult. change (this (Q2Qc (1 # 10))) with (1 # 10)%Q. change (this 0%Qc) with 0%Q in *. lra.
  - intros v x. unfold two, square_measures. cbn [number]. destruct (String.eqb v "2"); [|discriminate]. intros E. 
    assert (X : Some x = Some (Fin (Q2Qc 2))) by (symmetry; exact E). inversion X. reflexivity.
  - intros c f s x s' _ F _. unfold square_measures, pts. cbn [up down]. rewrite F. intros Z.
    assert (Q : (this (size * Q2Qc (3 # 4) + size * Q2Qc (1 # 4))%Qc == 0)%Q) by (rewrite Z; reflexivity).
    rewrite this_plus, !this_mult in Q. cbn [this Q2Qc] in Q. rewrite !Qred_correct in Q. unfold Qclt in SP. change (this 0%Qc) with 0%Q in SP. lra.
Qed.
Example squares_enlarged : forall c, enlarged c 1 square_measures square_measures.
Proof.
  intros c. split; [|split; [|split]]; [intros sym name typ z m f f'; subst f f'| | |]; cbn; intros;
    repeat split; ring.
Qed.
(** Width, height and depth in hundredths: as computed by the program, and as
    specified. *)
Definition box_cents (expr : string) : option (list Z) :=
  match mtex_parse ascii_only id_range squares two expr (xofZ 20) (xofZ 60) tt with
  | Some (LOk (t, None, _)) => Some [cents (t_width t); cents (t_height t); cents (t_depth t)]
  | _ => None
  end.
Definition spec_cents (expr : string) : option (list Z) :=
  match parse_expr ascii_only expr with
  | Ok l => let e := size_of_expression square_measures expr (Q2Qc 20) (Q2Qc 60) l in
    Some [cents (Fin (x_w e)); cents (Fin (x_h e)); cents (Fin (x_d e))]
  | _ => None
  end.
Definition c64_cases : list string :=
  ["$\dfrac{1}{22}$"; "$a+\frac{b}{\sqrt{c}}$"; "x $\binom{n}{k}\hspace{2}\overline{a.}\quad1.5$"; "$\sqrt[3]{x=\sin(y)}$"; "a $-b(-c$"].
Example C64_case : map box_cents c64_cases = map spec_cents c64_cases /\
  map box_cents c64_cases =
  [Some [4400; 2900; 2100]; Some [9260; 2300; 2270]; Some [29800; 2200; 1500]; Some [20080; 2600; 500]; Some [14800; 1500; 500]].
Proof. split; vm_compute; reflexivity. Qed.
(** Twice the size: twice as large. *)
Example C66_case : (0 < Q2Qc 2 * 1)%Qc /\ measured_by square_measures (Q2Qc 20) (Q2Qc 60) squares two /\
  measured_by square_measures (Q2Qc 2 * Q2Qc 20) (1 * Q2Qc 60) squares two.
Proof. split; [reflexivity|]. split; apply squares_measured; reflexivity. Qed.
Print Assumptions C64_size. Print Assumptions C65_space_math. Print Assumptions C66_scaling.
