(** Packing and scaling. *)
From Coq Require Import ZArith Bool List String Ascii Lia.
From Verif Require Import Arith Box ShipSpec ShipFacts ShipFacts2 PackSpec OrderLaws.
Import ListNotations.
Local Open Scope Z_scope.
Local Open Scope list_scope.

Section PackFacts.
Context {A : arith}.
Notation F := (F A).
Notation tnode := (@tnode A).
Notation gset := (@gset A).
Notation box := (@box A).
Notation dims := (@dims A).
Local Open Scope F.

Definition hfold (l : list tnode) (d : dims) : dims := fold_left (fun d x => hpack_dims x d) l d.

Lemma hfold_w l : forall d, d_w (hfold l d) = fold_left (fun a x => a + x) (map t_width l) (d_w d).
Proof.
  induction l as [|x l IH]; intros d; cbn; [reflexivity|]. unfold hfold in IH. rewrite IH. f_equal.
  destruct x; cbn; try destruct (_ || _); reflexivity.
Qed.

(** A fold of maxima. *)
Lemma fold_max_ub (O : order_laws A) l : forall a, num a -> Forall num l ->
  In (fold_left (fmax A) l a) (a :: l) /\ (forall x, In x (a :: l) -> fltb A (fold_left (fmax A) l a) x = false).
Proof.
  induction l as [|y l IH]; intros a Ha Hl; cbn [fold_left].
  - split; [now left|]. intros x [<-|[]]. now apply (ol_irrefl A O).
  - inversion Hl as [|? ? Hy Hl']; subst.
    assert (Hm : num (fmax A a y)) by (destruct (ol_max_in A O a y Ha Hy) as [-> | ->]; assumption).
    destruct (IH (fmax A a y) Hm Hl') as [H1 H2].
    set (r := fold_left (fmax A) l (fmax A a y)) in *.
    assert (Hr : num r).
    { destruct H1 as [<-|H1]; [assumption|]. rewrite Forall_forall in Hl'. auto. }
    split.
    + destruct H1 as [H1|H1]; [|right; right; assumption].
      rewrite <- H1. destruct (ol_max_in A O a y Ha Hy) as [-> | ->]; [left|right; left]; reflexivity.
    + intros x [<-|[<-|Hx]].
      * apply (ol_trans A O a (fmax A a y) r); auto using (ol_max_l A O). apply H2. now left.
      * apply (ol_trans A O y (fmax A a y) r); auto using (ol_max_r A O). apply H2. now left.
      * apply H2. now right.
Qed.

Lemma hfold_h l : forall d, d_h (hfold l d) = fold_left (fmax A) (tl (heights l)) (d_h d).
Proof.
  unfold hfold, heights. cbn [tl]. induction l as [|x l IH]; intros d; cbn [fold_left flat_map]; [reflexivity|].
  rewrite IH, fold_left_app. f_equal. unfold running.
  destruct x; cbn; try destruct (_ || _); reflexivity.
Qed.
Lemma hfold_d l : forall d, d_d (hfold l d) = fold_left (fmax A) (tl (depths l)) (d_d d).
Proof.
  unfold hfold, depths. cbn [tl]. induction l as [|x l IH]; intros d; cbn [fold_left flat_map]; [reflexivity|].
  rewrite IH, fold_left_app. f_equal. unfold running.
  destruct x; cbn; try destruct (_ || _); reflexivity.
Qed.

(** ** Glue totals *)
Lemma add_at_nth o x l i : nth i (add_at (A:=A) o x l) f0 = if (Nat.eqb i o && Nat.ltb i (List.length l))%bool then nth i l f0 + x else nth i l f0.
Proof.
  revert o i; induction l as [|y l IH]; intros o i.
  - destruct o, i; cbn; rewrite ?andb_false_r; reflexivity.
  - destruct o as [|o], i as [|i]; cbn [add_at nth List.length]; try reflexivity.
    rewrite IH. reflexivity.
Qed.
Lemma add_at_length o x l : List.length (add_at (A:=A) o x l) = List.length l.
Proof. revert o; induction l as [|y l IH]; intros [|o]; cbn; auto. Qed.

Definition els_stretch (l : list tnode) (o : nat) : list F :=
  flat_map (fun x => match x with TGlue g => if Nat.eqb (g_stretch_order g) o then [g_stretch g] else [] | _ => [] end) l.
Definition els_shrink (l : list tnode) (o : nat) : list F :=
  flat_map (fun x => match x with TGlue g => if Nat.eqb (g_shrink_order g) o then [g_shrink g] else [] | _ => [] end) l.

Definition tot_ok (l : list tnode) (d d' : dims) : Prop :=
  (forall o, (o < 4)%nat -> nth o (d_stretch d') f0 = fold_left (fun a x => a + x) (els_stretch l o) (nth o (d_stretch d) f0)) /\
  (forall o, (o < 4)%nat -> nth o (d_shrink d') f0 = fold_left (fun a x => a + x) (els_shrink l o) (nth o (d_shrink d) f0)) /\
  List.length (d_stretch d') = 4%nat /\ List.length (d_shrink d') = 4%nat.

Lemma tot_glue g d w h dd l d' :
  List.length (d_stretch d) = 4%nat -> List.length (d_shrink d) = 4%nat ->
  tot_ok l (mk_dims w h dd (add_at (g_stretch_order g) (g_stretch g) (d_stretch d)) (add_at (g_shrink_order g) (g_shrink g) (d_shrink d))) d' ->
  tot_ok (TGlue g :: l) d d'.
Proof.
  intros L1 L2 (H1 & H2 & H3 & H4). unfold tot_ok. repeat split; auto; intros o Ho.
  - rewrite H1 by assumption. cbn [d_stretch els_stretch flat_map]. rewrite fold_left_app. f_equal.
    rewrite add_at_nth, L1. rewrite (proj2 (Nat.ltb_lt o 4) Ho), andb_true_r, Nat.eqb_sym.
    destruct (Nat.eqb _ o); reflexivity.
  - rewrite H2 by assumption. cbn [d_shrink els_shrink flat_map]. rewrite fold_left_app. f_equal.
    rewrite add_at_nth, L2. rewrite (proj2 (Nat.ltb_lt o 4) Ho), andb_true_r, Nat.eqb_sym.
    destruct (Nat.eqb _ o); reflexivity.
Qed.

Lemma tot_other x l d d1 d' : (forall g, x <> TGlue g) -> d_stretch d1 = d_stretch d -> d_shrink d1 = d_shrink d ->
  tot_ok l d1 d' -> tot_ok (x :: l) d d'.
Proof.
  intros Hx E1 E2 (H1 & H2 & H3 & H4). rewrite E1 in H1. rewrite E2 in H2.
  destruct x; try (repeat split; assumption). now destruct (Hx g).
Qed.

Lemma hfold_tot l : forall d, List.length (d_stretch d) = 4%nat -> List.length (d_shrink d) = 4%nat -> tot_ok l d (hfold l d).
Proof.
  induction l as [|x l IH]; intros d L1 L2; [unfold tot_ok; cbn; auto|].
  change (hfold (x :: l) d) with (hfold l (hpack_dims x d)).
  destruct x as [b|c|c|b|g|sz w|k b sh gs' xs];
    try (match goal with |- tot_ok (?y :: _) _ _ =>
      assert (X : d_stretch (hpack_dims y d) = d_stretch d /\ d_shrink (hpack_dims y d) = d_shrink d)
        by (cbn; try destruct (_ || _); auto) end;
      destruct X as [X1 X2];
      eapply tot_other; [congruence|exact X1|exact X2|apply IH; congruence]).
  eapply tot_glue; [assumption|assumption|]. apply (IH (hpack_dims (TGlue g) d)); cbn; rewrite add_at_length; assumption.
Qed.

Lemma vfold_tot l : forall d d', List.length (d_stretch d) = 4%nat -> List.length (d_shrink d) = 4%nat ->
  vfold l d = LOk d' -> tot_ok l d d'.
Proof.
  induction l as [|x l IH]; intros d d' L1 L2 H; [inversion H; subst; unfold tot_ok; cbn; auto|].
  cbn [vfold] in H. destruct x; cbn [vpack_dims] in H; try discriminate.
  1,2,4,5: apply IH in H; [|assumption|assumption]; destruct H as (H1 & H2 & H3 & H4); repeat split; assumption.
  apply IH in H; [|cbn; now rewrite add_at_length|cbn; now rewrite add_at_length].
  eapply tot_glue; eauto.
Qed.

Lemma order_spec (tot : list F) : List.length tot = 4%nat ->
  (highest (fun o => nth o tot f0) (determine_order tot)) \/
  (determine_order tot = 0%nat /\ forall o, (o <= 3)%nat -> zero (nth o tot f0)).
Proof.
  intros L. destruct tot as [|a [|b [|c [|d [|]]]]]; try discriminate. clear L.
  unfold determine_order, highest, zero. cbn [List.length nth].
  destruct (feqb A d f0) eqn:Ed; cbn [negb].
  2:{ left. repeat split; [lia|congruence|]. intros o' Ho. lia. }
  destruct (feqb A c f0) eqn:Ec; cbn [negb].
  2:{ left. repeat split; [lia|congruence|]. intros o' Ho. assert (o' = 3%nat) as -> by lia. assumption. }
  destruct (feqb A b f0) eqn:Eb; cbn [negb].
  2:{ left. repeat split; [lia|congruence|]. intros o' Ho. assert (o' = 2%nat \/ o' = 3%nat) as [-> | ->] by lia; assumption. }
  destruct (feqb A a f0) eqn:Ea; cbn [negb].
  2:{ left. repeat split; [lia|congruence|]. intros o' Ho. assert (o' = 1 \/ o' = 2 \/ o' = 3)%nat as [-> | [-> | ->]] by lia; assumption. }
  right. split; [reflexivity|]. intros o Ho.
  assert (o = 0 \/ o = 1 \/ o = 2 \/ o = 3)%nat as [-> | [-> | [-> | ->]]] by lia; assumption.
Qed.

Lemma highest_ext t t' o : (forall o, (o <= 3)%nat -> t o = t' o) -> highest (A:=A) t o -> highest t' o.
Proof.
  intros E (H1 & H2 & H3). repeat split; auto.
  - now rewrite <- E.
  - intros o' Ho. rewrite <- E by lia. auto.
Qed.

Lemma pack_glue_spec g x d l :
  tot_ok l dims0 d -> glue_setting (tot_stretch l) (tot_shrink l) x (pack_glue g x d).
Proof.
  intros (H1 & H2 & H3 & H4).
  assert (E1 : forall o, (o <= 3)%nat -> nth o (d_stretch d) f0 = tot_stretch l o).
  { intros o Ho. rewrite H1 by lia. unfold tot_stretch, fsum. f_equal.
    destruct o as [|[|[|[|]]]]; try reflexivity. lia. }
  assert (E2 : forall o, (o <= 3)%nat -> nth o (d_shrink d) f0 = tot_shrink l o).
  { intros o Ho. rewrite H2 by lia. unfold tot_shrink, fsum. f_equal.
    destruct o as [|[|[|[|]]]]; try reflexivity. lia. }
  unfold pack_glue. destruct (feqb A x f0) eqn:Ex; [now apply gl_natural|].
  assert (Hx : ~ zero x) by (unfold zero; congruence).
  destruct (fltb A f0 x) eqn:Hlt; unfold set_glue.
  - destruct (order_spec (d_stretch d) H3) as [Hh|[Ho Hz]].
    + assert (Hle : (determine_order (d_stretch d) <= 3)%nat) by apply Hh.
      destruct (feqb A (nth _ _ _) f0) eqn:Ez; [destruct Hh as (_ & Hn & _); now destruct Hn|].
      apply gl_stretch; cbn; auto.
      * eapply highest_ext; [|exact Hh]. exact E1.
      * now rewrite <- E1.
    + assert (Hz0 := Hz 0%nat ltac:(lia)). rewrite Ho. unfold zero in Hz0. rewrite Hz0. cbn [negb].
      apply gl_rigid; auto. intros o Ho'. rewrite Hlt, <- E1 by assumption. auto.
  - destruct (order_spec (d_shrink d) H4) as [Hh|[Ho Hz]].
    + assert (Hle : (determine_order (d_shrink d) <= 3)%nat) by apply Hh.
      destruct (feqb A (nth _ _ _) f0) eqn:Ez; [destruct Hh as (_ & Hn & _); now destruct Hn|].
      apply gl_shrink; cbn; auto.
      * eapply highest_ext; [|exact Hh]. exact E2.
      * now rewrite <- E2.
    + assert (Hz0 := Hz 0%nat ltac:(lia)). rewrite Ho. unfold zero in Hz0. rewrite Hz0. cbn [negb].
      apply gl_rigid; auto. intros o Ho'. rewrite Hlt, <- E2 by assumption. auto.
Qed.

(** ** VPack *)
Lemma vfold_w l : forall d d', vfold l d = LOk d' -> d_w d' = fold_left (fmax A) (tl (widths l)) (d_w d).
Proof.
  unfold widths. cbn [tl]. induction l as [|x l IH]; intros d d' H; [now inversion H|].
  cbn [vfold] in H. cbn [flat_map]. rewrite fold_left_app.
  destruct x; cbn [vpack_dims] in H; try discriminate; rewrite (IH _ _ H); cbn [d_w fold_left];
    try destruct (finf A (b_width b)); reflexivity.
Qed.
Lemma vfold_d (l : list tnode) : forall d d', vfold l d = LOk d' -> d_d d' = match rev l with [] => d_d d | x :: _ => t_depth x end.
Proof.
  induction l as [|x l IH]; intros d d' H; [now inversion H|].
  cbn [vfold] in H. cbn [rev].
  destruct (vpack_dims x d) as [d1|] eqn:E; try discriminate. rewrite (IH _ _ H).
  destruct (rev l) as [|y r]; cbn; [|reflexivity].
  destruct x; cbn in E; try discriminate; inversion E; reflexivity.
Qed.
Lemma vfold_panic l : forall d, (forall x, In x l -> forall c, x <> @TChar A c /\ x <> TAccent c) -> exists d', vfold l d = LOk d'.
Proof.
  induction l as [|x l IH]; intros d H; [cbn; eauto|]. cbn [vfold].
  destruct x; cbn [vpack_dims];
    try (apply IH; intros y Hy; apply H; now right).
  - destruct (H (TChar c) (or_introl eq_refl) c). congruence.
  - destruct (H (TAccent c) (or_introl eq_refl) c). congruence.
Qed.

(** ** Kerning *)
Context {S : Type}.
Variable be : @backend A S.

Lemma kern_list_spec l : forall s l' s', kern_list be l s = LOk (l', s') ->
  exists ks, kernings be l s ks s' /\ l' = interleave l ks.
Proof.
  induction l as [|x l IH]; intros s l' s' H; cbn [kern_list] in H.
  - inversion H; subst. exists []. split; [constructor|reflexivity].
  - apply mbind_ok in H as (k & s1 & Hk & H). apply mbind_ok in H as (r & s2 & Hr & H).
    destruct (IH _ _ _ Hr) as (ks & Hks & ->). inversion H; subst. exists (k :: ks). split.
    + econstructor; eauto.
    + cbn. destruct (feqb A k f0); reflexivity.
Qed.
Lemma kern_list_ex l : forall s ks s', kernings be l s ks s' -> kern_list be l s = LOk (interleave l ks, s').
Proof.
  intros s ks s' H. induction H; cbn [kern_list]; [reflexivity|].
  unfold mbind. rewrite H, IHkernings. cbn. destruct (feqb A k f0); reflexivity.
Qed.

(** ** Scaling *)
Lemma mmap_map (f : tnode -> M S tnode) (g : tnode -> tnode) l :
  Forall (fun y => forall s, f y s = LOk (g y, s)) l -> forall s, mmap f l s = LOk (map g l, s).
Proof.
  induction 1 as [|y l Hy _ IH]; intros s; cbn [mmap map]; [reflexivity|].
  unfold mbind. rewrite Hy, IH. reflexivity.
Qed.
Lemma accent_free_all l : fold_right (fun y P => accent_free (A:=A) y /\ P) True l <-> Forall accent_free l.
Proof.
  induction l; cbn; [intuition constructor|]. rewrite IHl. split; [intros []; auto|intros H; inversion H; auto].
Qed.
Lemma Forall_flat_map {X Y} (P : Y -> Prop) (f : X -> list Y) l :
  Forall P (flat_map f l) <-> Forall (fun x => Forall P (f x)) l.
Proof.
  induction l; cbn; [intuition constructor|]. rewrite Forall_app, IHl.
  split; [intros []; auto|intros H; inversion H; auto].
Qed.

Lemma shrink_scaled (t : tnode) : accent_free t -> Forall (fun n => n <= 6)%Z (sizes t) ->
  forall s, shrink be t s = LOk (scaled shrink_factor (-1) t, s).
Proof.
  induction t as [b|c|c|b|g|sz w|k b sh gs l IH] using tnode_ind'; intros Ha Hs s; cbn [shrink scaled sizes] in *;
    try contradiction; pose proof (Forall_inv Hs) as Hs0; cbn beta in Hs0.
  - unfold box_shrink. rewrite (proj2 (Z.ltb_lt _ _)) by (unfold num_size_levels; lia). reflexivity.
  - unfold char_shrink. rewrite (proj2 (Z.ltb_lt _ _)) by (unfold num_size_levels; lia). reflexivity.
  - unfold box_shrink. rewrite (proj2 (Z.ltb_lt _ _)) by (unfold num_size_levels; lia). reflexivity.
  - rewrite (proj2 (Z.ltb_lt _ _)) by (unfold num_size_levels; lia). reflexivity.
  - rewrite (proj2 (Z.ltb_lt _ _)) by (unfold num_size_levels; lia). reflexivity.
  - inversion Hs as [|? ? Hb Hl]; subst. cbn [accent_free] in Ha. apply accent_free_all in Ha. apply Forall_flat_map in Hl.
    unfold mbind. rewrite (mmap_map _ (scaled shrink_factor (-1))).
    2:{ rewrite Forall_forall in *. intros y Hy. apply IH; auto. }
    assert (E : box_shrink b = scale_box shrink_factor (box_size (b_size b - 1) b)).
    { unfold box_shrink. rewrite (proj2 (Z.ltb_lt _ _)) by (unfold num_size_levels; lia). reflexivity. }
    rewrite E. cbn [b_size scale_box box_size]. rewrite (proj2 (Z.ltb_lt _ _)) by (unfold num_size_levels; lia). reflexivity.
Qed.
Lemma grow_scaled (t : tnode) : accent_free t -> forall s, grow be t s = LOk (scaled grow_factor 1 t, s).
Proof.
  induction t as [b|c|c|b|g|sz w|k b sh gs l IH] using tnode_ind'; intros Ha s; cbn [grow scaled] in *;
    try contradiction; try reflexivity.
  cbn [accent_free] in Ha. apply accent_free_all in Ha.
  unfold mbind. rewrite (mmap_map _ (scaled grow_factor 1)); [reflexivity|].
  rewrite Forall_forall in *. intros y Hy. apply IH; auto.
Qed.

Lemma sizes_scaled f n (t : tnode) : sizes (scaled f n t) = map (fun z => z + n)%Z (sizes t).
Proof.
  induction t as [b|c|c|b|g|sz w|k b sh gs l IH] using tnode_ind'; cbn; try reflexivity.
  f_equal. induction IH as [|y l Hy _ IHl]; cbn; [reflexivity|]. now rewrite Hy, IHl, map_app.
Qed.
Lemma accent_free_scaled f n (t : tnode) : accent_free t -> accent_free (scaled f n t).
Proof.
  induction t as [b|c|c|b|g|sz w|k b sh gs l IH] using tnode_ind'; cbn [scaled accent_free]; auto.
  rewrite !accent_free_all. intros H. rewrite Forall_forall in *. intros y Hy.
  apply in_map_iff in Hy as (z & <- & Hz). auto.
Qed.

(** Repeated Shrink. *)
Fixpoint shrinks (n : nat) (t : tnode) : M S tnode :=
  match n with O => mret t | Datatypes.S n' => mbind (shrink be t) (shrinks n') end.
Fixpoint scaleds (f : F) (dn : Z) (n : nat) (t : tnode) : tnode :=
  match n with O => t | Datatypes.S n' => scaleds f dn n' (scaled f dn t) end.
Lemma shrinks_scaled n : forall (t : tnode) s, accent_free t -> Forall (fun n => n <= 6)%Z (sizes t) ->
  shrinks n t s = LOk (scaleds shrink_factor (-1) n t, s).
Proof.
  induction n as [|n IH]; intros t s Ha Hs; cbn [shrinks scaleds]; [reflexivity|].
  unfold mbind. rewrite shrink_scaled by assumption. apply IH.
  - now apply accent_free_scaled.
  - rewrite sizes_scaled. rewrite Forall_forall in *. intros z Hz. apply in_map_iff in Hz as (z' & <- & Hz').
    specialize (Hs z' Hz'). lia.
Qed.

End PackFacts.
