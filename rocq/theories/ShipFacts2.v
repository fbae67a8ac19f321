(** Consequences of the refinement: idempotence, glyph order, constructed trees. *)
From Coq Require Import ZArith Bool List String Ascii Lia.
From Verif Require Import Arith Box Ship ShipSpec ShipFacts.
Import ListNotations.
Local Open Scope Z_scope.
Local Open Scope list_scope.

Section ShipFacts2.
Context {A : arith}.
Notation F := (F A).
Notation tnode := (@tnode A).
Notation gset := (@gset A).
Notation box := (@box A).
Notation glue := (@glue A).
Notation tchar := (@tchar A).
Notation event := (@event A).
Notation ship := (@ship A).
Local Open Scope F.

(** ** Overwriting widths changes nothing that is used afterwards *)

(** [y'] has the same metrics as [y] for the layout of its parent: same kind of
    node, same height, depth and shift, same width unless the parent is vertical. *)
Definition like (vert : bool) (y y' : tnode) : Prop :=
  match y, y' with
  | TL k b sh gs l, TL k' b' sh' gs' l' =>
    k = k' /\ sh = sh' /\ b_height b = b_height b' /\ b_depth b = b_depth b' /\
    (vert = false -> b_width b = b_width b') /\ (is_sub y = false -> y = y') /\ (l = [] <-> l' = [])
  | TL _ _ _ _ _, _ | _, TL _ _ _ _ _ => False
  | _, _ => y = y'
  end.

Lemma over1_like vert bx y : like vert y (over1 vert bx y).
Proof.
  destruct y as [b|c|c|b|g|sz w|k b sh gs' xs]; try reflexivity.
  destruct k, xs as [|z zs]; cbn; destruct vert; cbn; repeat split; intros; try congruence; try discriminate.
Qed.

Lemma like_elastic vert gs y y' : like vert y y' -> elastic gs y' = elastic gs y.
Proof. destruct y, y'; cbn; intros H; try contradiction; try discriminate; try reflexivity; now inversion H. Qed.
Lemma like_elastics vert gs pre pre' : Forall2 (like vert) pre pre' -> elastics gs pre' = elastics gs pre.
Proof.
  induction 1 as [|y y' l l' H _ IH]; [reflexivity|]. unfold elastics in *. cbn.
  now rewrite IH, (like_elastic _ gs _ _ H).
Qed.
Lemma like_upto vert gs pre pre' : Forall2 (like vert) pre pre' -> glue_upto gs pre' = glue_upto gs pre.
Proof. intros H. unfold glue_upto. now rewrite (like_elastics _ gs _ _ H). Qed.
Lemma like_size vert gs pre pre' g : Forall2 (like vert) pre pre' -> glue_size gs pre' g = glue_size gs pre g.
Proof.
  intros H. unfold glue_size. rewrite (like_upto _ gs _ _ H).
  rewrite (like_upto vert gs (pre ++ [TGlue g]) (pre' ++ [TGlue g])); [reflexivity|].
  apply Forall2_app; auto. constructor; [reflexivity|constructor].
Qed.
Lemma like_right gs pre pre' y y' h :
  Forall2 (like false) pre pre' -> like false y y' -> right_of gs pre' y' h = right_of gs pre y h.
Proof.
  intros Hp H. unfold right_of. f_equal.
  destruct y, y'; cbn in H; try contradiction; try discriminate; try (inversion H; subst; cbn; eauto using like_size; fail).
  cbn. symmetry. tauto.
Qed.
Lemma like_below gs pre pre' y y' h :
  Forall2 (like true) pre pre' -> like true y y' -> below gs pre' y' h = below gs pre y h.
Proof.
  intros Hp H. unfold below.
  destruct y, y'; cbn in H; try contradiction; try discriminate; try (inversion H; subst; cbn; reflexivity).
  - inversion H; subst. f_equal. eauto using like_size.
  - destruct H as (<- & <- & H1 & H2 & _ & H3 & H4).
    destruct k; try (rewrite H3 by reflexivity; reflexivity);
    destruct l as [|z zs], l0 as [|z' zs']; cbn; rewrite ?H1, ?H2; try reflexivity;
    exfalso; (assert (X : z' :: zs' = []) by (apply H4; reflexivity); discriminate X) || (assert (X : z :: zs = []) by (apply H4; reflexivity); discriminate X).
Qed.
Lemma after_like step vert :
  (forall pre pre' y y' p, Forall2 (like vert) pre pre' -> like vert y y' -> step pre' y' p = step pre y p) ->
  forall l l' pre pre' p, Forall2 (like vert) pre pre' -> Forall2 (like vert) l l' ->
  after step p pre' l' = after step p pre l.
Proof.
  intros Hs l l' pre pre' p Hp Hl. revert pre pre' p Hp.
  induction Hl as [|y y' l l' H _ IH]; intros; cbn; [reflexivity|].
  rewrite (Hs pre pre' y y' p Hp H). apply IH. apply Forall2_app; auto.
Qed.
Lemma like_hpos gs x0 l l' : Forall2 (like false) l l' -> hpos gs x0 l' = hpos gs x0 l.
Proof. intros H. unfold hpos. eapply after_like; eauto. intros. now apply like_right. Qed.
Lemma like_vpos gs x0 l l' : Forall2 (like true) l l' -> vpos gs x0 l' = vpos gs x0 l.
Proof. intros H. unfold vpos. eapply after_like; eauto. intros. now apply like_below. Qed.

Lemma over_like_all vert bx l : Forall2 (like vert) l (map (over1 vert bx) l).
Proof. induction l; constructor; auto using over1_like. Qed.

Lemma each_map {X} (f f' : list tnode -> tnode -> list X) (g : tnode -> tnode) l :
  Forall (fun y => forall pre, f' (map g pre) (g y) = f pre y) l ->
  forall pre, each f' (map g pre) (map g l) = each f pre l.
Proof.
  induction 1 as [|y l H _ IH]; intros; cbn [each map]; [reflexivity|].
  rewrite H. f_equal. rewrite <- (IH (pre ++ [y])). now rewrite map_app.
Qed.

Lemma draws_overwritten ox oy (t : tnode) : forall vert bx x v,
  draws ox oy vert bx (overwritten vert bx t) x v = draws ox oy vert bx t x v.
Proof.
  induction t as [b|c|c|b|g|sz w|k b sh gs l IH] using tnode_ind'; intros; try reflexivity.
  rewrite overwritten_unfold, !draws_unfold.
  change (@nil tnode) with (map (over1 vert bx) []) at 1.
  apply each_map. eapply Forall_impl; [|exact IH]. clear IH. intros y Hy pre.
  assert (Hpos : if vert then forall p, vpos gs p (map (over1 vert bx) pre) = vpos gs p pre
                 else forall p, hpos gs p (map (over1 vert bx) pre) = hpos gs p pre).
  { destruct vert; intros p; [apply like_vpos|apply like_hpos]; apply over_like_all. }
  destruct vert; unfold vdraw, hdraw; rewrite Hpos;
    (destruct y as [b'|c'|c'|b'|g'|sz' w'|k' b' sh' gs' xs]; try reflexivity);
    (destruct k', xs as [|z zs]; try reflexivity); cbn [over1];
    match goal with |- context [overwritten ?v ?bb ?t] => specialize (Hy v bb) end;
    rewrite overwritten_unfold in *; cbn [t_height b_height box_width] in *;
    first [apply Hy | idtac].
Qed.

Lemma box_width_idem w b : box_width (A:=A) w (box_width w b) = box_width w b.
Proof. reflexivity. Qed.

Lemma overwritten_idem (t : tnode) : forall vert bx,
  overwritten vert bx (overwritten vert bx t) = overwritten vert bx t.
Proof.
  induction t as [b|c|c|b|g|sz w|k b sh gs l IH] using tnode_ind'; intros; try reflexivity.
  rewrite !overwritten_unfold. f_equal. rewrite map_map. apply map_ext_in. intros y Hy.
  rewrite Forall_forall in IH. specialize (IH y Hy).
  destruct y as [b'|c'|c'|b'|g'|sz' w'|k' b' sh' gs' xs]; try reflexivity.
  destruct k', xs as [|z zs]; try reflexivity; cbn [over1 is_vlist];
    match goal with |- context [overwritten ?v ?bb ?t] => specialize (IH v bb) end;
    revert IH; rewrite !overwritten_unfold; cbn [over1 map is_vlist]; intros IH;
    destruct vert; cbn [b_width box_width b_size b_height b_depth] in *; rewrite ?overwritten_unfold; exact IH.
Qed.

Lemma stuck_overwritten (t : tnode) : forall vert vert' bx,
  match t with TL k b sh gs l => b_height bx = b_height b | _ => True end ->
  stuck vert (overwritten vert' bx t) -> stuck vert t.
Proof.
  induction t as [b|c|c|b|g|sz w|k b sh gs l IH] using tnode_ind'; intros vert vert' bx Hh H; try exact H.
  rewrite overwritten_unfold in H. apply stuck_iff in H as (y' & Hin & Hn).
  apply in_map_iff in Hin as (y & <- & Hin). apply stuck_iff. exists y. split; [assumption|].
  rewrite Forall_forall in IH. specialize (IH y Hin).
  assert (Hv : forall x, hvisible bx x = hvisible b x) by (intros; unfold hvisible; now rewrite Hh).
  destruct y as [b'|c'|c'|b'|g'|sz' w'|k' b' sh' gs' xs];
    try (unfold nstuck in *; cbn [over1] in *; rewrite Hv in Hn; exact Hn).
  destruct k', xs as [|z zs]; try (unfold nstuck in *; cbn [over1] in *; rewrite Hv in Hn; exact Hn);
    unfold nstuck in *; right; right; split; try reflexivity; cbn [over1] in Hn; cbn [is_vlist];
    (destruct Hn as [(_ & c & [Hc|Hc])|[(_ & Hs & _)|(_ & Hn)]];
      [rewrite overwritten_unfold in Hc; discriminate..|rewrite overwritten_unfold in Hs; discriminate|]);
    rewrite overwritten_unfold in Hn; cbn [is_vlist] in Hn;
    rewrite <- (overwritten_unfold _ _ _ b' ) in Hn;
    (eapply IH; [|exact Hn]); destruct vert'; reflexivity.
Qed.

(** ** The glyphs in order *)
Definition glyphs (l : list event) : list (@font A * string * F) :=
  flat_map (fun e => match e with EGlyph _ _ ft s d => [(ft, s, d)] | ERect _ _ _ _ => [] end) l.

(** Characters of a tree in depth-first order; the contents of List and
    SubSuperCluster nodes are never drawn. *)
Fixpoint chars (t : tnode) : list (@font A * string * F) :=
  match t with
  | TL _ _ _ _ l =>
    flat_map (fun y =>
      match y with
      | TChar c | TAccent c => [(c_font c, c_sym c, c_dpi c)]
      | TL (KHList | KVList) _ _ _ _ => chars y
      | _ => []
      end) l
  | _ => []
  end.
Definition chars1 (y : tnode) : list (@font A * string * F) :=
  match y with
  | TChar c | TAccent c => [(c_font c, c_sym c, c_dpi c)]
  | TL (KHList | KVList) _ _ _ _ => chars y
  | _ => []
  end.

Lemma glyphs_app a b : glyphs (a ++ b) = glyphs a ++ glyphs b.
Proof. apply flat_map_app. Qed.

Lemma glyphs_each (f : list tnode -> tnode -> list event) l :
  Forall (fun y => forall pre, glyphs (f pre y) = chars1 y) l ->
  forall pre, glyphs (each f pre l) = flat_map chars1 l.
Proof.
  induction 1 as [|y l H _ IH]; intros; cbn [each flat_map]; [reflexivity|].
  now rewrite glyphs_app, H, IH.
Qed.

Lemma glyphs_draws ox oy (t : tnode) : forall vert bx x v, ~ stuck vert t ->
  glyphs (draws ox oy vert bx t x v) = chars t.
Proof.
  induction t as [b|c|c|b|g|sz w|k b sh gs l IH] using tnode_ind'; intros vert bx x v Hns; try reflexivity.
  rewrite draws_unfold. change (chars (TL k b sh gs l)) with (flat_map chars1 l).
  apply glyphs_each. rewrite Forall_forall in IH |- *. intros y Hin pre. specialize (IH y Hin).
  assert (Hny : ~ nstuck vert b y) by (intros H; apply Hns, stuck_iff; eauto).
  destruct vert; [unfold vdraw|unfold hdraw];
    (destruct y as [b'|c'|c'|b'|g'|sz' w'|k' b' sh' gs' xs]; try reflexivity).
  - destruct Hny. left. eauto.
  - destruct Hny. left. eauto.
  - destruct (vvisible _); reflexivity.
  - destruct k'; try reflexivity; apply IH; intros H; apply Hny; right; right; auto.
  - destruct (hvisible _ _); reflexivity.
  - destruct k'; try reflexivity; apply IH; intros H; apply Hny; right; right; auto.
Qed.

(** ** Trees built from the exported constructors *)
Record zero_laws : Prop := mk_zero_laws {
  zl_lt : fltb A f0 f0 = false;
  zl_inf : finf A f0 = false;
  zl_shrink : f0 * shrink_factor = @f0 A;
  zl_grow : f0 * grow_factor = @f0 A }.

(** Invariant of such trees. *)
Fixpoint fine (t : tnode) : Prop :=
  match t with
  | TBox b => b_width b = f0 \/ b_height b = f0
  | TL k b _ _ l =>
    (k = KList -> b_width b = f0) /\ k <> KCluster /\
    (k = KVList -> forall c, ~ In (TChar c) l /\ ~ In (TAccent c) l) /\
    fold_right (fun y P => fine y /\ P) True l
  | _ => True
  end.

Lemma fine_all l : fold_right (fun y P => fine y /\ P) True l <-> Forall fine l.
Proof.
  induction l; cbn; [intuition constructor|]. rewrite IHl. split; [intros []; auto|intros H; inversion H; auto].
Qed.

Lemma fine_not_stuck (ZL : zero_laws) (t : tnode) :
  fine t -> forall vert, (vert = true -> match t with TL k _ _ _ _ => k = KVList | _ => True end) -> ~ stuck vert t.
Proof.
  induction t as [b|c|c|b|g|sz w|k b sh gs l IH] using tnode_ind'; intros Hf vert Hk; try (intros H; inversion H; fail).
  destruct Hf as (Hl & Hc & Hv & Hall). apply fine_all in Hall.
  rewrite stuck_iff. intros (y & Hin & Hn). rewrite Forall_forall in IH, Hall.
  specialize (IH y Hin). specialize (Hall y Hin).
  destruct Hn as [(-> & c & [->| ->])|[(-> & Hs & Hr & Hvis)|(Hsub & Hst)]].
  - destruct (Hv (Hk eq_refl) c). auto.
  - destruct (Hv (Hk eq_refl) c). auto.
  - unfold hvisible in Hvis. apply andb_prop in Hvis as [Hh Hw].
    destruct y as [b'|c'|c'|b'|g'|sz' w'|k' b' sh' gs' xs]; try discriminate.
    + cbn in *. destruct Hall as [E|E]; rewrite E in *; [now rewrite (zl_lt ZL) in Hw|].
      unfold run in Hh. now rewrite (zl_inf ZL), (zl_lt ZL) in Hh.
    + now apply (Hr b').
    + cbn [t_width t_height] in *. destruct Hall as (Hl' & Hc' & _). destruct k'; try discriminate; [|congruence].
      rewrite Hl' in Hw by reflexivity. now rewrite (zl_lt ZL) in Hw.
  - destruct y as [b'|c'|c'|b'|g'|sz' w'|k' b' sh' gs' xs]; try contradiction.
    revert Hst. apply IH; auto. destruct k'; try discriminate; auto.
Qed.

(** The exported constructors and methods of package tex that make or change
    nodes (tex/box.go:158-166, 192, 281, 359, 461, 517, 588, 590, 608, 693, 734,
    746, 760, 835, 846, 866, 915 and the Shrink and Grow methods); [S] is the
    state of the font backend [be]. *)
Context {S : Type}.
Variable be : @backend A S.
Inductive built : tnode -> Prop :=
  | b_vbox h d : built (vbox h d)
  | b_hbox w : built (hbox w)
  | b_char c st m s ch s' : new_char be c st m s = LOk (ch, s') -> built (TChar ch)
  | b_accent c st m s ch s' : new_accent be c st m s = LOk (ch, s') -> built (TAccent ch)
  | b_list l : (forall y, In y l -> built y) -> built (list_of KList l)
  | b_hlist l dk s t s' : (forall y, In y l -> built y) -> hlist_of be l dk s = LOk (t, s') -> built t
  | b_hpack t w ad : built t -> (exists b sh gs l, t = TL KHList b sh gs l) -> built (hpack w ad t)
  | b_shift t sh : built t -> (exists b sh gs l, t = TL KVList b sh gs l) -> built (set_shift sh t)
  | b_vlist l (s : S) t s' : (forall y, In y l -> built y) -> vlist_of l s = LOk (t, s') -> built t
  | b_vpack t h ad lim t' : built t -> (exists b sh gs l, t = TL KVList b sh gs l) -> vpack h ad lim t = LOk t' -> built t'
  | b_rule w h d : built (new_rule w h d)
  | b_hrule st th s t s' : hrule be st th s = LOk (t, s') -> built t
  | b_vrule st s t s' : vrule be st s = LOk (t, s') -> built t
  | b_glue typ g : new_glue typ = Some g -> built (TGlue g)
  | b_hcentered l s t s' : (forall y, In y l -> built y) -> hcentered be l s = LOk (t, s') -> built t
  | b_vcentered l (s : S) t s' : (forall y, In y l -> built y) -> vcentered l s = LOk (t, s') -> built t
  | b_kern w : built (new_kern w)
  | b_auto c h d st f s t s' : auto_height_char be c h d st f s = LOk (t, s') -> built t
  | b_shrink t s t' s' : built t -> shrink be t s = LOk (t', s') -> built t'
  | b_grow t s t' s' : built t -> grow be t s = LOk (t', s') -> built t'.

Lemma mbind_ok {X Y} (m : M S X) (k : X -> M S Y) s r :
  mbind m k s = LOk r -> exists x s', m s = LOk (x, s') /\ k x s' = LOk r.
Proof. unfold mbind. destruct (m s) as [[x s']|]; intros H; try discriminate. eauto. Qed.

Lemma kern_list_fine l : Forall fine l -> forall s l' s', kern_list be l s = LOk (l', s') -> Forall fine l'.
Proof.
  induction 1 as [|y l Hy _ IH]; intros s l' s' H; cbn [kern_list] in H.
  - inversion H. constructor.
  - apply mbind_ok in H as (d & s1 & _ & H). apply mbind_ok in H as (r & s2 & Hr & H).
    unfold mret in H. inversion H; subst. destruct (negb _); repeat constructor; eauto.
Qed.

Lemma hlist_fine l dk s t s' : Forall fine l -> hlist_of be l dk s = LOk (t, s') -> fine t.
Proof.
  intros Hl H. unfold hlist_of in H. apply mbind_ok in H as (l' & s1 & Hk & H).
  unfold mret in H. inversion H; subst. cbn. repeat split; try congruence.
  apply fine_all. destruct dk; [eauto using kern_list_fine|]. inversion Hk; now subst.
Qed.

Lemma vfold_nochar l : forall d d', vfold l d = LOk d' -> forall c, ~ In (@TChar A c) l /\ ~ In (TAccent c) l.
Proof.
  induction l as [|y l IH]; intros d d' H c; [cbn; auto|]. cbn in H.
  destruct (vpack_dims y d) as [d1|] eqn:E; try discriminate.
  destruct (IH _ _ H c) as [H1 H2]. split; intros [->|]; auto; discriminate.
Qed.

Lemma vpack_fine h ad lim t t' : fine t -> (forall k b sh gs l, t = TL k b sh gs l -> k = KVList) -> vpack h ad lim t = LOk t' -> fine t'.
Proof.
  intros Hf Hk H. destruct t; cbn in H; try (inversion H; subst; assumption).
  destruct (vfold l dims0) as [d|] eqn:E; try discriminate. inversion H; subst. clear H.
  destruct Hf as (_ & _ & _ & Hall). pose proof (Hk _ _ _ _ _ eq_refl). subst.
  cbn. repeat split; try discriminate; [| |assumption]; intros Hin; eapply vfold_nochar in E; destruct E; eauto.
Qed.

Lemma vlist_fine l (s : S) t s' : Forall fine l -> vlist_of l s = LOk (t, s') -> fine t.
Proof.
  intros Hl H. unfold vlist_of in H.
  destruct (vpack f0 true (fpinf A) (list_of KVList l)) as [t1|] eqn:E; try discriminate.
  unfold mret in H. inversion H; subst. clear H.
  unfold vpack, list_of in E. destruct (vfold l dims0) as [d|] eqn:Ef; try discriminate.
  inversion E; subst. clear E. cbn. repeat split; try discriminate; try (apply fine_all; assumption);
  intros Hin; eapply vfold_nochar in Ef; destruct Ef; eauto.
Qed.

Lemma mmap_fine (f : tnode -> M S tnode) (Q : tnode -> tnode -> Prop) l :
  (forall y, In y l -> forall s y' s', f y s = LOk (y', s') -> Q y y') ->
  forall s l' s', mmap f l s = LOk (l', s') -> Forall2 Q l l'.
Proof.
  induction l as [|y l IH]; intros Hf s l' s' H; cbn [mmap] in H.
  - inversion H. constructor.
  - apply mbind_ok in H as (y' & s1 & Hy & H). apply mbind_ok in H as (r & s2 & Hr & H).
    unfold mret in H. inversion H; subst. constructor; [eapply Hf; cbn; eauto|]. eapply IH; eauto. intros. eapply Hf; cbn; eauto.
Qed.

(** Scaling keeps the shape. *)
Definition same_shape (y y' : tnode) : Prop :=
  match y, y' with
  | TBox _, TBox _ | TChar _, TChar _ | TAccent _, TAccent _ | TRule _, TRule _ | TGlue _, TGlue _ | TKern _ _, TKern _ _ => True
  | TL k _ _ _ _, TL k' _ _ _ _ => k = k'
  | _, _ => False
  end.

Lemma no_char_shape l l' : Forall2 same_shape l l' ->
  (forall c, ~ In (TChar c) l /\ ~ In (TAccent c) l) -> forall c, ~ In (TChar c) l' /\ ~ In (TAccent c) l'.
Proof.
  induction 1 as [|y y' l l' H _ IH]; intros Hn c; [cbn; auto|].
  assert (Hn' : forall c, ~ In (TChar c) l /\ ~ In (TAccent c) l).
  { intros c'. destruct (Hn c') as [N1 N2]. cbn in N1, N2. tauto. }
  destruct (IH Hn' c) as [I1 I2]. split; intros [->|]; auto;
    (destruct y as [ |c'|c'| | | | ]; try contradiction; destruct (Hn c') as [N1 N2]; cbn in N1, N2; tauto).
Qed.

Lemma box_shrink_zero (ZL : zero_laws) b :
  (b_width b = f0 -> b_width (box_shrink (A:=A) b) = f0) /\ (b_height b = f0 -> b_height (box_shrink b) = f0).
Proof.
  unfold box_shrink. destruct (Z.ltb _ _); cbn; split; intros ->; auto using (zl_shrink ZL).
Qed.
Lemma box_grow_zero (ZL : zero_laws) b :
  (b_width b = f0 -> b_width (box_grow (A:=A) b) = f0) /\ (b_height b = f0 -> b_height (box_grow b) = f0).
Proof. cbn; split; intros ->; auto using (zl_grow ZL). Qed.

Lemma shrink_fine (ZL : zero_laws) (t : tnode) : forall s t' s', shrink be t s = LOk (t', s') ->
  same_shape t t' /\ (fine t -> fine t').
Proof.
  induction t as [b|c|c|b|g|sz w|k b sh gs l IH] using tnode_ind'; intros s t' s' H; cbn [shrink] in H;
    try (inversion H; subst; cbn; auto; fail).
  - inversion H; subst. split; [exact I|]. cbn. destruct (box_shrink_zero ZL b). tauto.
  - apply mbind_ok in H as (c' & s1 & _ & H). inversion H; subst. cbn. auto.
  - apply mbind_ok in H as (l' & s1 & Hl & H).
    rewrite Forall_forall in IH.
    apply (mmap_fine _ (fun y y' => same_shape y y' /\ (fine y -> fine y'))) in Hl; [|eauto].
    assert (Hsh : Forall2 same_shape l l') by (clear -Hl; induction Hl; constructor; tauto).
    assert (Hfi : Forall fine l -> Forall fine l').
    { clear -Hl. induction Hl as [|y y' l l' [_ Hy] _ IHl]; intros Hf; [constructor|]. inversion Hf; subst. constructor; auto. }
    destruct (box_shrink_zero ZL b) as [Hb _].
    assert (X : same_shape (TL k b sh gs l) t' /\ exists b' sh' gs', t' = TL k b' sh' gs' l' /\ (b_width b = f0 -> b_width b' = f0)).
    { destruct (Z.ltb _ _); inversion H; subst; split; try reflexivity; do 3 eexists; eauto. }
    destruct X as (Xs & b' & sh' & gs' & -> & Xw). split; [reflexivity|].
    intros (F1 & F2 & F3 & F4). cbn. repeat split; auto.
    + eapply no_char_shape; eauto.
    + eapply no_char_shape; eauto.
    + apply fine_all, Hfi, fine_all, F4.
Qed.
Lemma grow_fine (ZL : zero_laws) (t : tnode) : forall s t' s', grow be t s = LOk (t', s') ->
  same_shape t t' /\ (fine t -> fine t').
Proof.
  induction t as [b|c|c|b|g|sz w|k b sh gs l IH] using tnode_ind'; intros s t' s' H; cbn [grow] in H;
    try (inversion H; subst; cbn; auto; fail).
  - inversion H; subst. split; [exact I|]. cbn [fine]. destruct (box_grow_zero ZL b). tauto.
  - apply mbind_ok in H as (c' & s1 & _ & H). inversion H; subst. cbn. auto.
  - apply mbind_ok in H as (l' & s1 & Hl & H).
    rewrite Forall_forall in IH.
    apply (mmap_fine _ (fun y y' => same_shape y y' /\ (fine y -> fine y'))) in Hl; [|eauto].
    assert (Hsh : Forall2 same_shape l l') by (clear -Hl; induction Hl; constructor; tauto).
    assert (Hfi : Forall fine l -> Forall fine l').
    { clear -Hl. induction Hl as [|y y' l l' [_ Hy] _ IHl]; intros Hf; [constructor|]. inversion Hf; subst. constructor; auto. }
    destruct (box_grow_zero ZL b) as [Hb _].
    assert (X : same_shape (TL k b sh gs l) t' /\ exists b' sh' gs', t' = TL k b' sh' gs' l' /\ (b_width b = f0 -> b_width b' = f0)).
    { inversion H; subst; split; try reflexivity; do 3 eexists; eauto. }
    destruct X as (Xs & b' & sh' & gs' & -> & Xw). split; [reflexivity|].
    intros (F1 & F2 & F3 & F4). cbn. repeat split; auto.
    + eapply no_char_shape; eauto.
    + eapply no_char_shape; eauto.
    + apply fine_all, Hfi, fine_all, F4.
Qed.

Lemma built_fine (ZL : zero_laws) (t : tnode) : built t -> fine t.
Proof.
  assert (Hss : fine glue_ss) by exact I.
  assert (Hin : forall l : list tnode, (forall y, In y l -> fine y) -> Forall fine l) by (intros; now apply Forall_forall).
  intros H. induction H; try exact I; try (cbn; auto; fail).
  - cbn. repeat split; try congruence. apply fine_all. auto.
  - eapply hlist_fine; [|eassumption]. now apply Hin.
  - destruct H0 as (b & sh & gs & l & ->). destruct IHbuilt as (F1 & F2 & F3 & F4). cbn [hpack fine]. split; [discriminate|split; [discriminate|split; [discriminate|assumption]]].
  - destruct H0 as (b & sh0 & gs & l & ->). exact IHbuilt.
  - eapply vlist_fine; [|eassumption]. now apply Hin.
  - destruct H0 as (b & sh0 & gs & l & ->). eapply vpack_fine; eauto. congruence.
  - unfold hrule in H. apply mbind_ok in H as (t1 & s1 & _ & H). inversion H; subst. exact I.
  - unfold vrule in H. apply mbind_ok in H as (t1 & s1 & _ & H). inversion H; subst. exact I.
  - unfold hcentered in H1. eapply hlist_fine; [|exact H1]. constructor; auto. apply Forall_app; auto.
  - unfold vcentered in H1. eapply vlist_fine; [|exact H1]. constructor; auto. apply Forall_app; auto.
  - unfold auto_height_char in H. apply mbind_ok in H as (xh & s1 & _ & H). apply mbind_ok in H as (ch & s2 & _ & H).
    apply mbind_ok in H as (cs & s3 & _ & H). apply mbind_ok in H as (t1 & s4 & Ht & H). inversion H; subst.
    assert (fine t1) by (eapply hlist_fine; [|exact Ht]; repeat constructor).
    destruct t1; exact H0.
  - eapply shrink_fine; eauto.
  - eapply grow_fine; eauto.
Qed.

End ShipFacts2.
