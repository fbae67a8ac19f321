(** Trees of separate objects and programs that own them. *)
From Coq Require Import ZArith String Ascii List Bool Lia Permutation.
From Verif Require Import Utf8 Token Ast SymTable SetTable MtexTable Parser Symbols Arith Box Ship Mtex Heap HeapSpec.
Import ListNotations.
Local Open Scope list_scope.
Local Open Scope nat_scope.

Section HeapFacts.
Context {A : arith} {S : Type}.
Notation F := (Arith.F A).
Notation tnode := (@Box.tnode A).
Notation heap := (heap A).
Notation HM := (@M (heap * S)).

Scheme repr_mind := Induction for repr Sort Prop
  with reprs_mind := Induction for reprs Sort Prop.

Lemma repr_in (h : heap) a t fp : repr h a t fp -> In a fp.
Proof. destruct 1; left; reflexivity. Qed.

Lemma nth_lt (h : heap) a c : nth_error h a = Some c -> a < length h.
Proof. intro H. apply nth_error_Some. rewrite H. discriminate. Qed.

Lemma repr_bound (h : heap) :
  forall a t fp, repr h a t fp -> forall x, In x fp -> x < length h.
Proof.
  intros a t fp R.
  refine (repr_mind A h (fun a t fp _ => forall x, In x fp -> x < length h)
            (fun ls l fp _ => forall x, In x fp -> x < length h) _ _ _ _ a t fp R).
  - intros a0 t0 e i x [<-|[]]. eapply nth_lt, e.
  - intros a0 k b sh g ls l fp0 e r IH x [<-|H]; [eapply nth_lt, e|apply IH, H].
  - intros x [].
  - intros a0 ls t0 l fp0 fps r IH1 r2 IH2 x H. apply in_app_or in H as [H|H]; auto.
Qed.
Lemma reprs_bound (h : heap) : forall ls l fp, reprs h ls l fp -> forall x, In x fp -> x < length h.
Proof.
  induction 1 as [|a ls t l fp fps R Rs IH]; intros x H; [destruct H|].
  apply in_app_or in H as [H|H]; [eapply repr_bound; eauto|auto].
Qed.

(** A tree depends on its own objects only. *)
Lemma repr_frame (h h' : heap) : forall a t fp, repr h a t fp ->
  (forall x, In x fp -> nth_error h' x = nth_error h x) -> repr h' a t fp.
Proof.
  intros a t fp R.
  refine (repr_mind A h (fun a t fp _ => (forall x, In x fp -> nth_error h' x = nth_error h x) -> repr h' a t fp)
    (fun ls l fp _ => (forall x, In x fp -> nth_error h' x = nth_error h x) -> reprs h' ls l fp) _ _ _ _ a t fp R).
  - intros a0 t0 e i H. constructor; [rewrite H; [exact e|left; reflexivity]|exact i].
  - intros a0 k b sh g ls l fp0 e r IH H. econstructor.
    + rewrite H; [exact e|left; reflexivity].
    + apply IH. intros x Hx. apply H. right. exact Hx.
  - intros _. constructor.
  - intros a0 ls t0 l fp0 fps r IH1 r2 IH2 H. constructor; [apply IH1|apply IH2];
      intros x Hx; apply H, in_or_app; auto.
Qed.
Lemma reprs_frame (h h' : heap) : forall ls l fp, reprs h ls l fp ->
  (forall x, In x fp -> nth_error h' x = nth_error h x) -> reprs h' ls l fp.
Proof.
  induction 1 as [|a ls t l fp fps R Rs IH]; intros H; constructor.
  - eapply repr_frame; [exact R|]. intros x Hx. apply H, in_or_app. auto.
  - apply IH. intros x Hx. apply H, in_or_app. auto.
Qed.

(** ** Writing *)
Lemma update_length (h : heap) : forall a c, length (update a c h) = length h.
Proof. induction h as [|x h IH]; intros [|a] c; cbn; auto. Qed.
Lemma update_same (h : heap) : forall a c, a < length h -> nth_error (update a c h) a = Some c.
Proof. induction h as [|x h IH]; intros [|a] c H; cbn in *; try lia; auto. apply IH. lia. Qed.
Lemma update_other (h : heap) : forall a c x, x <> a -> nth_error (update a c h) x = nth_error h x.
Proof.
  induction h as [|y h IH]; intros [|a] c [|x] H; cbn; try reflexivity; try (exfalso; apply H; reflexivity).
  apply IH. congruence.
Qed.
Lemma changes_update (h : heap) a c : only_changes [a] h (update a c h).
Proof.
  split; [apply update_length|]. intros x H. apply update_other. intros ->. apply H. left. reflexivity.
Qed.
Lemma changes_refl fp (h : heap) : only_changes fp h h.
Proof. split; auto. Qed.
Lemma changes_trans fp (h1 h2 h3 : heap) : only_changes fp h1 h2 -> only_changes fp h2 h3 -> only_changes fp h1 h3.
Proof. intros [L1 H1] [L2 H2]. split; [congruence|]. intros a H. rewrite H2, H1; auto. Qed.
Lemma changes_incl fp fp' (h1 h2 : heap) : only_changes fp h1 h2 -> incl fp fp' -> only_changes fp' h1 h2.
Proof. intros [L H] I. split; [exact L|]. intros a N. apply H. intro X. apply N, I, X. Qed.

(** ** Steps of programs: they own the objects [fp] before and [fp'] afterwards. *)
Definition step (fp : list loc) (h : heap) (fp' : list loc) (h' : heap) : Prop :=
  length h <= length h' /\
  (forall x, In x fp' -> In x fp \/ length h <= x) /\
  (forall x, x < length h -> ~ In x fp -> nth_error h' x = nth_error h x).

Lemma step_refl fp h : step fp h fp h.
Proof. repeat split; auto. Qed.
Lemma step_trans fp1 h1 fp2 h2 fp3 h3 : step fp1 h1 fp2 h2 -> step fp2 h2 fp3 h3 -> step fp1 h1 fp3 h3.
Proof.
  intros (L1 & I1 & C1) (L2 & I2 & C2). split; [lia|split].
  - intros x H. destruct (I2 x H) as [H'|H']; [exact (I1 x H')|right; lia].
  - intros x Hx N. rewrite C2; [apply C1; auto|lia|]. intro H. destruct (I1 x H) as [H'|H']; [auto|lia].
Qed.
Lemma step_incl fp1 h1 fp2 h2 fp1' fp2' : step fp1 h1 fp2 h2 -> incl fp1 fp1' -> incl fp2' fp2 -> step fp1' h1 fp2' h2.
Proof.
  intros (L1 & I1 & C1) i1 i2. split; [exact L1|split].
  - intros x H. destruct (I1 x (i2 x H)) as [H'|H']; auto.
  - intros x Hx N. apply C1; [exact Hx|]. intro H. apply N, i1, H.
Qed.
Lemma step_changes fp (h h' : heap) : only_changes fp h h' -> step fp h fp h'.
Proof. intros [L H]. split; [lia|split; auto]. Qed.

(** ** Owned trees *)
Definition world : Type := list (loc * tnode).
Inductive owns (h : heap) : world -> list loc -> Prop :=
  | owns_nil : owns h [] []
  | owns_cons : forall a t W fp fps, repr h a t fp -> owns h W fps -> owns h ((a, t) :: W) (fp ++ fps).

Lemma owns_app h W1 : forall W2 fp, owns h (W1 ++ W2) fp <->
  exists fp1 fp2, fp = fp1 ++ fp2 /\ owns h W1 fp1 /\ owns h W2 fp2.
Proof.
  induction W1 as [|[a t] W1 IH]; intros W2 fp; split.
  - intro H. exists [], fp. split; [reflexivity|]. split; [constructor|exact H].
  - intros (fp1 & fp2 & -> & H1 & H2). inversion H1; subst. exact H2.
  - intro H. inversion H as [|a' t' W' f1 f2 R O]; subst. apply IH in O as (g1 & g2 & -> & O1 & O2).
    exists (f1 ++ g1), g2. rewrite app_assoc. split; [reflexivity|]. split; [constructor; auto|exact O2].
  - intros (fp1 & fp2 & -> & H1 & H2). inversion H1 as [|a' t' W' f1 f2 R O]; subst.
    rewrite <- app_assoc. cbn. constructor; [exact R|]. apply IH. exists f2, fp2. auto.
Qed.
Lemma owns_bound h W fp : owns h W fp -> forall x, In x fp -> x < length h.
Proof.
  induction 1 as [|a t W fp fps R O IH]; intros x H; [destruct H|].
  apply in_app_or in H as [H|H]; [eapply repr_bound; eauto|auto].
Qed.
Lemma owns_frame h h' W fp : owns h W fp -> (forall x, In x fp -> nth_error h' x = nth_error h x) -> owns h' W fp.
Proof.
  induction 1 as [|a t W fp fps R O IH]; intros H; constructor.
  - eapply repr_frame; [exact R|]. intros x Hx. apply H, in_or_app. auto.
  - apply IH. intros x Hx. apply H, in_or_app. auto.
Qed.
Lemma owns_perm h W W' : Permutation W W' -> forall fp, owns h W fp -> exists fp', owns h W' fp' /\ Permutation fp fp'.
Proof.
  induction 1 as [|[a t] W W' P IH|[a t] [a' t'] W|W1 W2 W3 P1 IH1 P2 IH2]; intros fp O.
  - exists fp. auto.
  - inversion O; subst. destruct (IH fps) as (f & O' & P'); [assumption|]. exists (fp0 ++ f).
    split; [constructor; auto|]. apply Permutation_app_head, P'.
  - inversion O as [|? ? ? f1 f2 R1 O1]; subst. inversion O1 as [|? ? ? f3 f4 R2 O2]; subst.
    exists (f3 ++ f1 ++ f4). split; [constructor; auto; constructor; auto|].
    rewrite !app_assoc. apply Permutation_app_tail, Permutation_app_comm.
  - destruct (IH1 fp O) as (f & O' & P'). destruct (IH2 f O') as (f' & O'' & P'').
    exists f'. split; [exact O''|]. eapply Permutation_trans; eauto.
Qed.
Lemma owns_reprs h ls l fp : reprs h ls l fp <-> (owns h (combine ls l) fp /\ length ls = length l).
Proof.
  split.
  - induction 1 as [|a ls t l fp fps R Rs [IH1 IH2]]; cbn; split; [constructor|reflexivity|constructor; auto|auto].
  - intros [O L]. revert l fp O L. induction ls as [|a ls IH]; intros [|t l] fp O L; try discriminate L.
    + inversion O; subst. constructor.
    + cbn in O. inversion O; subst. constructor; auto.
Qed.

Lemma nodup_app (l1 l2 : list loc) : NoDup (l1 ++ l2) <-> NoDup l1 /\ NoDup l2 /\ (forall x, In x l1 -> ~ In x l2).
Proof.
  induction l1 as [|a l1 IH]; cbn; split.
  - intro H. split; [constructor|]. split; [exact H|]. intros x [].
  - tauto.
  - intro H. inversion H as [|a' l' N D]; subst. apply IH in D as (D1 & D2 & D3).
    split; [constructor; auto; intro X; apply N, in_or_app; auto|]. split; [exact D2|].
    intros x [<-|X] Y; [apply N, in_or_app; auto|exact (D3 x X Y)].
  - intros (D1 & D2 & D3). inversion D1; subst. constructor.
    + intro X. apply in_app_or in X as [X|X]; [auto|apply (D3 a); auto].
    + apply IH. repeat split; auto.
Qed.

(** ** Programs that touch only what they own, whatever others do elsewhere meanwhile *)
(** The others have not touched [fp]. *)
Definition rely (fp : list loc) (h h' : heap) : Prop :=
  length h <= length h' /\ forall a, In a fp -> nth_error h' a = nth_error h a.
Lemma rely_refl fp h : rely fp h h. Proof. split; auto. Qed.
Lemma rely_trans fp h1 h2 h3 : rely fp h1 h2 -> rely fp h2 h3 -> rely fp h1 h3.
Proof. intros [L1 H1] [L2 H2]. split; [lia|]. intros a I. rewrite H2, H1; auto. Qed.
Lemma rely_incl fp fp' h h' : rely fp' h h' -> incl fp fp' -> rely fp h h'.
Proof. intros [L H] I. split; auto. Qed.
Lemma rely_update fp a c h h' : rely fp h h' -> In a fp -> a < length h -> rely fp (update a c h) (update a c h').
Proof.
  intros [L H] I La. split; [rewrite !update_length; exact L|]. intros x Ix.
  destruct (Nat.eq_dec x a) as [->|N]; [rewrite !update_same by lia; reflexivity|].
  rewrite !update_other by exact N. apply H, Ix.
Qed.

(** Run in state [s] and heap [h], owning the objects [fp], with other programs changing
    the rest of the heap and allocating between any two steps: the program reads and
    writes only its own objects; if it ends, [Q] holds of the result, the state, what it
    owns then and the heap; if it panics, [E] holds of the message. *)
Fixpoint safe {X} (p : prog A S X) (s : S) (fp : list loc) (h : heap)
    (Q : X -> S -> list loc -> heap -> Prop) (E : string -> Prop) : Prop :=
  forall h', rely fp h h' ->
  match p with
  | PRet x => Q x s fp h'
  | PPanic e => E e
  | PRead a k => In a fp /\ exists c, nth_error h' a = Some c /\ safe (k c) s fp h' Q E
  | PWrite a c k => In a fp /\ a < length h' /\ safe k s fp (update a c h') Q E
  | PAlloc c k => safe (k (length h')) s (length h' :: fp) (h' ++ [c]) Q E
  | PSize k => safe (k (length h')) s fp h' Q E
  | PCall m k => match m s with LOk (y, s') => safe (k y) s' fp h' Q E | LPanic e => E e end
  end.

Lemma safe_rely {X} (p : prog A S X) s fp h h' Q E : safe p s fp h Q E -> rely fp h h' -> safe p s fp h' Q E.
Proof. intros Sf R. destruct p; intros h2 R2; exact (Sf h2 (rely_trans fp h h' h2 R R2)). Qed.
Lemma safe_ret {X} (x : X) s fp h (Q : X -> S -> list loc -> heap -> Prop) E :
  (forall h', rely fp h h' -> Q x s fp h') -> safe (PRet x) s fp h Q E.
Proof. intros H h' R. apply H, R. Qed.
Lemma safe_panic {X} e s fp h Q (E : string -> Prop) : E e -> safe (X := X) (PPanic e) s fp h Q E.
Proof. intros H h' _. exact H. Qed.
Lemma safe_read {X} a c (k : cell A -> prog A S X) s fp h Q E :
  In a fp -> nth_error h a = Some c -> safe (k c) s fp h Q E -> safe (PRead a k) s fp h Q E.
Proof.
  intros I Ea K h' R. split; [exact I|]. exists c. split; [rewrite <- Ea; apply R, I|eapply safe_rely; eassumption].
Qed.
Lemma safe_write {X} a c (k : prog A S X) s fp h Q E :
  In a fp -> a < length h -> safe k s fp (update a c h) Q E -> safe (PWrite a c k) s fp h Q E.
Proof.
  intros I La K h' R. split; [exact I|]. split; [destruct R; lia|]. eapply safe_rely; [exact K|]. apply rely_update; assumption.
Qed.
Lemma safe_alloc {X} c (k : loc -> prog A S X) s fp h Q E :
  (forall h', rely fp h h' -> safe (k (length h')) s (length h' :: fp) (h' ++ [c]) Q E) -> safe (PAlloc c k) s fp h Q E.
Proof. intros K h' R. apply K, R. Qed.
Lemma safe_size {X} (k : nat -> prog A S X) s fp h Q E :
  (forall n, length h <= n -> safe (k n) s fp h Q E) -> safe (PSize k) s fp h Q E.
Proof. intros K h' R. eapply safe_rely; [apply K, R|exact R]. Qed.
Lemma safe_call {X Y} (m : M S Y) (k : Y -> prog A S X) s fp h Q (E : string -> Prop) :
  match m s with LOk (y, s') => safe (k y) s' fp h Q E | LPanic e => E e end -> safe (PCall m k) s fp h Q E.
Proof. intros K h' R. destruct (m s) as [[y s']|e]; [eapply safe_rely; eassumption|exact K]. Qed.

Lemma safe_mono {X} (p : prog A S X) : forall s fp h (Q Q' : X -> S -> list loc -> heap -> Prop) (E E' : string -> Prop),
  safe p s fp h Q E -> (forall x s' fp' h', Q x s' fp' h' -> Q' x s' fp' h') -> (forall e, E e -> E' e) ->
  safe p s fp h Q' E'.
Proof.
  induction p as [x|e|a k IH|a c k IH|c k IH|k IH|Y m k IH]; intros s fp h Q Q' E E' Sf HQ HE h' R; specialize (Sf h' R).
  - apply HQ, Sf.
  - apply HE, Sf.
  - destruct Sf as (I & c & Ea & Sf). split; [exact I|]. exists c. split; [exact Ea|]. solve [exact (IH _ _ _ _ _ _ _ _ Sf HQ HE)|exact (IH _ _ _ _ _ _ _ Sf HQ HE)].
  - destruct Sf as (I & La & Sf). split; [exact I|]. split; [exact La|]. solve [exact (IH _ _ _ _ _ _ _ _ Sf HQ HE)|exact (IH _ _ _ _ _ _ _ Sf HQ HE)].
  - solve [exact (IH _ _ _ _ _ _ _ _ Sf HQ HE)|exact (IH _ _ _ _ _ _ _ Sf HQ HE)].
  - solve [exact (IH _ _ _ _ _ _ _ _ Sf HQ HE)|exact (IH _ _ _ _ _ _ _ Sf HQ HE)].
  - cbn in Sf. destruct (m s) as [[y s']|e]; [solve [exact (IH _ _ _ _ _ _ _ _ Sf HQ HE)|exact (IH _ _ _ _ _ _ _ Sf HQ HE)]|apply HE, Sf].
Qed.
Lemma safe_bind {X Y} (p : prog A S X) : forall (f : X -> prog A S Y) s fp h (Q : X -> S -> list loc -> heap -> Prop) Q' E,
  safe p s fp h Q E -> (forall x s' fp' h', Q x s' fp' h' -> safe (f x) s' fp' h' Q' E) ->
  safe (pbind p f) s fp h Q' E.
Proof.
  induction p as [x|e|a k IH|a c k IH|c k IH|k IH|Z m k IH]; intros f s fp h Q Q' E Sf K; cbn [pbind].
  - apply K, Sf, rely_refl.
  - intros h' R. exact (Sf h' R).
  - intros h' R. destruct (Sf h' R) as (I & c & Ea & Sf'). split; [exact I|]. exists c. split; [exact Ea|]. eapply IH; eassumption.
  - intros h' R. destruct (Sf h' R) as (I & La & Sf'). split; [exact I|]. split; [exact La|]. eapply IH; eassumption.
  - intros h' R. eapply IH; [exact (Sf h' R)|exact K].
  - intros h' R. eapply IH; [exact (Sf h' R)|exact K].
  - intros h' R. specialize (Sf h' R). cbn in Sf. destruct (m s) as [[y s']|e]; [|exact Sf]. eapply IH; [exact Sf|exact K].
Qed.
Lemma safe_assoc {X Y Z} (p : prog A S X) : forall (f : X -> prog A S Y) (g : Y -> prog A S Z) s fp h Q E,
  safe (pbind p (fun x => pbind (f x) g)) s fp h Q E -> safe (pbind (pbind p f) g) s fp h Q E.
Proof.
  induction p as [x|e|a k IH|a c k IH|c k IH|k IH|V m k IH]; intros f g s fp h Q E Sf; cbn [pbind] in *; try exact Sf;
    intros h' R; specialize (Sf h' R).
  - destruct Sf as (I & c & Ea & Sf). split; [exact I|]. exists c. split; [exact Ea|]. apply IH, Sf.
  - destruct Sf as (I & La & Sf). split; [exact I|]. split; [exact La|]. apply IH, Sf.
  - apply IH, Sf.
  - apply IH, Sf.
  - cbn in Sf. destruct (m s) as [[y s']|e]; [apply IH, Sf|exact Sf].
Qed.

(** Objects [fr] that are owned but not used are left alone. *)
Definition disjoint (l1 l2 : list loc) : Prop := forall x, In x l1 -> ~ In x l2.
Definition bounded (fp : list loc) (h : heap) : Prop := forall x, In x fp -> x < length h.
Definition agree (fp : list loc) (h h' : heap) : Prop := forall x, In x fp -> nth_error h' x = nth_error h x.
Lemma safe_frame {X} (p : prog A S X) : forall s f fp fr h h0 (Q : X -> S -> list loc -> heap -> Prop) E,
  safe p s f h Q E -> incl f fp -> incl fr fp -> disjoint f fr -> bounded fr h -> agree fr h0 h ->
  safe p s fp h (fun x s' g h' => exists new, g = new ++ fp /\ disjoint (new ++ f) fr /\ agree fr h0 h' /\ Q x s' (new ++ f) h') E.
Proof.
  induction p as [x|e|a k IH|a c k IH|c k IH|k IH|V m k IH]; intros s f fp fr h h0 Q E Sf If Ir D B Ag h' R;
    pose proof (rely_incl _ _ _ _ R If) as Rf;
    assert (B' : bounded fr h') by (intros z Hx; destruct R as [L _]; apply B in Hx; lia);
    assert (Ag' : agree fr h0 h') by (intros z Hx; rewrite <- (Ag z Hx); apply R, Ir, Hx);
    specialize (Sf h' Rf).
  - exists []. split; [reflexivity|]. split; [exact D|]. split; [exact Ag'|exact Sf].
  - exact Sf.
  - destruct Sf as (I & c & Ea & Sf). split; [apply If, I|]. exists c. split; [exact Ea|]. eapply IH; eassumption.
  - destruct Sf as (I & La & Sf). split; [apply If, I|]. split; [exact La|]. eapply IH; try eassumption.
    + intros x Hx. rewrite update_length. apply B', Hx.
    + intros x Hx. rewrite update_other; [apply Ag', Hx|]. intros ->. exact (D a I Hx).
  - eapply safe_mono; [eapply (IH (length h') s (length h' :: f) (length h' :: fp) fr (h' ++ [c]) h0 Q E Sf)| |auto].
    + intros x [<-|Hx]; [left; reflexivity|right; apply If, Hx].
    + intros x Hx. right. apply Ir, Hx.
    + intros x [<-|Hx] Hr; [apply B' in Hr; lia|exact (D x Hx Hr)].
    + intros x Hx. rewrite app_length. apply B' in Hx. lia.
    + intros x Hx. rewrite nth_error_app1 by (apply B', Hx). apply Ag', Hx.
    + intros x s' g h2 (new & -> & D' & Ag2 & q). exists (new ++ [length h']). rewrite <- !app_assoc.
      split; [reflexivity|]. split; [exact D'|]. split; [exact Ag2|exact q].
  - eapply IH; eassumption.
  - cbn in Sf. destruct (m s) as [[y s']|e]; [eapply IH; eassumption|exact Sf].
Qed.
(** Owning more does no harm. *)
Lemma safe_more {X} (p : prog A S X) s f fp h Q E :
  safe p s f h Q E -> incl f fp ->
  safe p s fp h (fun x s' g h' => exists new, g = new ++ fp /\ Q x s' (new ++ f) h') E.
Proof.
  intros Sf If. eapply safe_mono; [eapply (safe_frame p s f fp [] h h Q E Sf If)| |auto].
  - intros x [].
  - intros x _ [].
  - intros x [].
  - intros x [].
  - intros x s' g h' (new & Eg & _ & _ & q). exists new. auto.
Qed.

(** Running alone. *)
Lemma safe_run {X} (p : prog A S X) : forall s fp h Q E, safe p s fp h Q E ->
  match run p h s with
  | LOk (x, (h', s')) => exists fp', Q x s' fp' h' /\ step fp h fp' h' /\ (length h' + length fp = length h + length fp')
  | LPanic e => E e
  end.
Proof.
  induction p as [x|e|a k IH|a c k IH|c k IH|k IH|V m k IH]; intros s fp h Q E Sf; specialize (Sf h (rely_refl fp h)); cbn [run].
  - exists fp. split; [exact Sf|]. split; [apply step_refl|lia].
  - exact Sf.
  - destruct Sf as (I & c & Ea & Sf). rewrite Ea. apply IH, Sf.
  - destruct Sf as (I & La & Sf). apply IH in Sf. destruct (run k (update a c h) s) as [[x [h' s']]|e]; [|exact Sf].
    destruct Sf as (fp' & q & St & L). rewrite update_length in L. exists fp'. split; [exact q|]. split; [|exact L].
    eapply step_trans; [|exact St]. apply step_changes. eapply changes_incl; [apply changes_update|].
    intros z [<-|[]]. exact I.
  - apply IH in Sf. destruct (run (k (length h)) (h ++ [c]) s) as [[x [h' s']]|e]; [|exact Sf].
    destruct Sf as (fp' & q & St & L). rewrite app_length in L. cbn in L. exists fp'. split; [exact q|]. split; [|lia].
    eapply step_trans; [|exact St]. split; [rewrite app_length; cbn; lia|split].
    + intros z [<-|H]; auto.
    + intros z H _. apply nth_error_app1, H.
  - apply IH, Sf.
  - cbn in Sf. destruct (m s) as [[y s']|e]; [apply IH, Sf|exact Sf].
Qed.

(** ** The tree program [m] and the heap program [p] do the same, from any heap in which
    [W] is owned; [Q] relates the results and what is owned afterwards. *)
Definition tri {Y X} (W : world) (m : M S Y) (p : prog A S X) (Q : Y -> X -> world -> Prop) : Prop :=
  forall h s fp, owns h W fp -> NoDup fp ->
  safe p s fp h
    (fun x s' fp' h' => exists y W' f', m s = LOk (y, s') /\ owns h' W' f' /\ NoDup f' /\ incl f' fp' /\ Q y x W')
    (fun e => m s = LPanic e).

Lemma owns_rely fp h h' W : owns h W fp -> rely fp h h' -> owns h' W fp.
Proof. intros O R. eapply owns_frame; [exact O|apply R]. Qed.
Lemma tri_ret {Y X} W (y : Y) (x : X) (Q : Y -> X -> world -> Prop) : Q y x W -> tri W (mret y) (PRet x) Q.
Proof.
  intros H h s fp O D. apply safe_ret. intros h' R. exists y, W, fp. split; [reflexivity|]. split; [eapply owns_rely; eassumption|].
  split; [exact D|]. split; [apply incl_refl|exact H].
Qed.
Lemma tri_panic {Y X} W e (Q : Y -> X -> world -> Prop) : tri W (mpanic e) (PPanic e) Q.
Proof. intros h s fp O D. apply safe_panic. reflexivity. Qed.
Lemma tri_weaken {Y X} W m hm (Q Q' : Y -> X -> world -> Prop) :
  tri W m hm Q -> (forall y x W', Q y x W' -> Q' y x W') -> tri W m hm Q'.
Proof.
  intros T H h s fp O D. eapply safe_mono; [apply T; eassumption| |auto]. cbn.
  intros x s' fp' h' (y & W' & f' & E & O' & D' & I & q). exists y, W', f'. auto 8.
Qed.
Lemma tri_bind {Y X Y' X'} W m hm (Q : Y -> X -> world -> Prop) (k : Y -> M S Y') (hk : X -> prog A S X') Q' :
  tri W m hm Q -> (forall y x W', Q y x W' -> tri W' (k y) (hk x) Q') -> tri W (mbind m k) (pbind hm hk) Q'.
Proof.
  intros T K h s fp O D. specialize (T h s fp O D).
  eapply safe_bind.
  - eapply safe_mono; [exact T|intros x s' fp' h' q; exact q|]. cbn. intros e H. unfold mbind. rewrite H. reflexivity.
  - cbn. intros x s' fp' h' (y & W' & f' & E & O' & D' & I & q).
    eapply safe_mono; [eapply safe_more; [apply (K y x W' q h' s' f' O' D')|exact I]| |].
    + cbn. intros x2 s2 g h2 (new & -> & y2 & W2 & f2 & E2 & O2 & D2 & I2 & q2).
      exists y2, W2, f2. split; [unfold mbind; rewrite E; exact E2|]. split; [exact O2|]. split; [exact D2|].
      split; [|exact q2]. intros z Hz. apply I2, in_app_or in Hz as [Hz|Hz]; apply in_or_app; auto.
    + cbn. intros e H. unfold mbind. rewrite E. exact H.
Qed.
Lemma tri_perm {Y X} W W' (m : M S Y) (hm : prog A S X) Q : Permutation W W' -> tri W' m hm Q -> tri W m hm Q.
Proof.
  intros P T h s fp O D. destruct (owns_perm h W W' P fp O) as (fp' & O' & P').
  assert (D' : NoDup fp') by (eapply Permutation_NoDup; eauto).
  eapply safe_mono; [eapply safe_more; [apply (T h s fp' O' D')|]| |auto].
  - intros z Hz. eapply Permutation_in; [apply Permutation_sym, P'|exact Hz].
  - cbn. intros x s' g h' (new & -> & y & W2 & f2 & E & O2 & D2 & I2 & q). exists y, W2, f2.
    split; [exact E|]. split; [exact O2|]. split; [exact D2|]. split; [|exact q].
    intros z Hz. apply I2, in_app_or in Hz as [Hz|Hz]; apply in_or_app; [auto|right].
    eapply Permutation_in; [apply Permutation_sym, P'|exact Hz].
Qed.
Lemma tri_frame {Y X} W R (m : M S Y) (hm : prog A S X) Q :
  tri W m hm Q -> tri (W ++ R) m hm (fun y x W'' => exists W', W'' = W' ++ R /\ Q y x W').
Proof.
  intros T h s fp O D. apply owns_app in O as (f & fR & -> & O & OR).
  apply nodup_app in D as (D1 & D2 & D3).
  eapply safe_mono; [eapply (safe_frame hm s f (f ++ fR) fR h h); [apply T; eassumption| | | | |]| |auto].
  - apply incl_appl, incl_refl.
  - apply incl_appr, incl_refl.
  - exact D3.
  - exact (owns_bound h R fR OR).
  - intros x _. reflexivity.
  - cbn. intros x s' g h' (new & -> & Dj & Ag & y & W2 & f2 & E & O2 & Dn & I2 & q).
    exists y, (W2 ++ R), (f2 ++ fR). split; [exact E|]. split.
    { apply owns_app. exists f2, fR. split; [reflexivity|]. split; [exact O2|]. eapply owns_frame; [exact OR|exact Ag]. }
    split; [apply nodup_app; split; [exact Dn|]; split; [exact D2|]; intros z Hz; apply Dj, I2, Hz|].
    split; [|eauto]. intros z Hz. apply in_app_or in Hz as [Hz|Hz].
    + apply I2, in_app_or in Hz as [Hz|Hz]; apply in_or_app; [auto|right; apply in_or_app; auto].
    + apply in_or_app. right. apply in_or_app. auto.
Qed.
(** The usual step: use a part [W1] of what is owned. *)
Lemma tri_use {Y X Y' X'} W1 R W m hm (Q : Y -> X -> world -> Prop) (k : Y -> M S Y') (hk : X -> prog A S X') Q' :
  Permutation W (W1 ++ R) -> tri W1 m hm Q ->
  (forall y x W', Q y x W' -> tri (W' ++ R) (k y) (hk x) Q') -> tri W (mbind m k) (pbind hm hk) Q'.
Proof.
  intros P T K. eapply tri_perm; [exact P|]. eapply tri_bind; [apply tri_frame, T|].
  intros y x W' (W2 & -> & q). apply K, q.
Qed.
Lemma tri_ext {Y X} W (m m' : M S Y) (hm : prog A S X) Q :
  (forall s, m s = m' s) -> tri W m' hm Q -> tri W m hm Q.
Proof.
  intros E T h s fp O D. rewrite E. apply T; assumption.
Qed.

(** ** Calls that do not see the heap *)
Lemma tri_pure {X Y' X'} W (m : M S X) (k : X -> M S Y') (hk : X -> prog A S X') Q :
  (forall x, tri W (k x) (hk x) Q) -> tri W (mbind m k) (pbind (call m) hk) Q.
Proof.
  intros K h s fp O D. apply safe_call. unfold mbind. destruct (m s) as [[y s']|e]; [|reflexivity].
  apply K; assumption.
Qed.
Lemma tri_call {Y' X X'} W (m m1 : M S X) (k : X -> M S Y') (hk : X -> prog A S X') Q :
  (forall s, m s = m1 s) -> (forall x, tri W (k x) (hk x) Q) -> tri W (mbind m k) (pbind (call m1) hk) Q.
Proof.
  intros E K. eapply tri_ext; [|apply tri_pure, K]. intro s. unfold mbind. rewrite E. reflexivity.
Qed.

(** The node without its children. *)
Definition fl (t : tnode) : tnode := match t with TL k b sh g _ => TL k b sh g [] | _ => t end.
Lemma kerning_fl (be : @backend A S) x n s : kerning be x n s = kerning be (fl x) (option_map fl n) s.
Proof. destruct x, n as [[]|]; reflexivity. Qed.

(** ** Reading *)
Lemma repr_cell (h : heap) a t fp : repr h a t fp -> exists c, nth_error h a = Some c /\ flat c = fl t.
Proof.
  inversion 1 as [a' t' E L|a' k b sh g ls l f E Rs]; subst.
  - exists (CLeaf t). split; [exact E|]. destruct t; try reflexivity. destruct L.
  - eexists. split; [exact E|reflexivity].
Qed.
Lemma owns_in h W fp a t : owns h W fp -> In (a, t) W -> exists f, repr h a t f /\ incl f fp.
Proof.
  induction 1 as [|a' t' W f fs R O IH]; intros I; [destruct I|]. destruct I as [E|I].
  - injection E as -> ->. exists f. split; [exact R|apply incl_appl, incl_refl].
  - destruct (IH I) as (f' & R' & I'). exists f'. split; [exact R'|apply incl_appr, I'].
Qed.
Lemma safe_look {X} a t f (k : tnode -> prog A S X) s fp h Q E :
  repr h a t f -> incl f fp -> safe (k (fl t)) s fp h Q E -> safe (pbind (look a) k) s fp h Q E.
Proof.
  intros R I Sf. destruct (repr_cell h a t f R) as (c & Ec & Fc).
  apply (safe_read a c); [apply I; eapply repr_in, R|exact Ec|]. cbn [pbind]. rewrite Fc. exact Sf.
Qed.
Lemma tri_look {Y X} W a t (m : M S Y) (hk : tnode -> prog A S X) Q :
  In (a, t) W -> tri W m (hk (fl t)) Q -> tri W m (pbind (look a) hk) Q.
Proof.
  intros I T h s fp O D. destruct (owns_in h W fp a t O I) as (f & R & If).
  eapply safe_look; [exact R|exact If|]. apply T; assumption.
Qed.
Lemma safe_kids {X} : forall ls l f (k : list tnode -> prog A S X) s fp h Q E,
  reprs h ls l f -> incl f fp -> safe (k (map fl l)) s fp h Q E -> safe (pbind (h_kids ls) k) s fp h Q E.
Proof.
  induction ls as [|a ls IH]; intros l f k s fp h Q E R I Sf; inversion R as [|? ? t l' f1 f2 R1 R2]; subst.
  - exact Sf.
  - unfold h_kids. cbn [pmap]. apply safe_assoc. eapply safe_look; [exact R1|exact (proj1 (incl_app_inv _ _ I))|].
    apply safe_assoc. fold (h_kids (A := A) (S := S) ls). eapply IH; [exact R2|exact (proj2 (incl_app_inv _ _ I))|]. exact Sf.
Qed.

(** ** Allocating *)
Lemma owns_grow h c W fp : owns h W fp -> owns (h ++ [c]) W fp.
Proof.
  intro O. eapply owns_frame; [exact O|]. intros x Hx. apply nth_error_app1. eapply owns_bound; eauto.
Qed.
Lemma nth_new (h : heap) c : nth_error (h ++ [c]) (length h) = Some c.
Proof. rewrite nth_error_app2 by lia. rewrite Nat.sub_diag. reflexivity. Qed.
Lemma tri_new {Y X} W t (m : M S Y) (hk : loc -> prog A S X) Q :
  is_leaf t -> (forall a, tri ((a, t) :: W) m (hk a) Q) -> tri W m (pbind (new t) hk) Q.
Proof.
  intros L T h s fp O D. apply safe_alloc. intros h' R. cbn [pbind].
  apply (owns_rely fp h h' W O) in R. clear O h. rename R into O.
  apply (T (length h') (h' ++ [CLeaf t]) s ([length h'] ++ fp)).
  - constructor; [constructor; [apply nth_new|exact L]|apply owns_grow, O].
  - cbn. constructor; [|exact D]. intro H. apply (owns_bound h' W fp O) in H. lia.
Qed.
(** [new] as the last step. *)
Definition one (y : tnode) (x : loc) (W : world) : Prop := W = [(x, y)].
Lemma tri_one t : is_leaf t -> tri [] (mret t) (new t) one.
Proof.
  intros L. unfold new. intros h s fp O D. apply safe_alloc. intros h' R. apply safe_ret. intros h2 R2.
  inversion O; subst. exists t, [(length h', t)], ([length h'] ++ []). split; [reflexivity|]. split.
  - constructor; [constructor; [|exact L]|constructor]. destruct R2 as [_ R2]. rewrite R2 by (left; reflexivity). apply nth_new.
  - split; [repeat constructor; intros []|]. split; [apply incl_refl|reflexivity].
Qed.

(** ** Packing *)
Lemma dims_fl t d : hpack_dims (fl t) d = hpack_dims t d.
Proof. destruct t; reflexivity. Qed.
Lemma fold_fl l : forall d, fold_left (fun d x => hpack_dims x d) (map fl l) d = fold_left (fun d x => hpack_dims x d) l d.
Proof. induction l as [|t l IH]; intro d; [reflexivity|]. cbn. rewrite dims_fl. apply IH. Qed.
Lemma vdims_fl t d : vpack_dims (fl t) d = vpack_dims t d.
Proof. destruct t; reflexivity. Qed.
Lemma vfold_fl l : forall d, vfold (map fl l) d = vfold l d.
Proof. induction l as [|t l IH]; intro d; [reflexivity|]. cbn. rewrite vdims_fl. destruct (vpack_dims t d); auto. Qed.

(** Overwriting the fields of the root of an owned tree. *)
Lemma set_root (h : heap) a k b sh g ls l fp b' sh' g' :
  reprs h ls l fp -> nth_error h a = Some (CList k b sh g ls) -> ~ In a fp ->
  repr (update a (CList k b' sh' g' ls) h) a (TL k b' sh' g' l) (a :: fp).
Proof.
  intros Rs E N. eapply repr_list.
  - apply update_same. eapply nth_lt, E.
  - eapply reprs_frame; [exact Rs|]. intros x Hx. apply update_other. intros ->. auto.
Qed.
Lemma repr_rely fp h h' a t f : repr h a t f -> incl f fp -> rely fp h h' -> repr h' a t f.
Proof. intros R I [_ Rl]. eapply repr_frame; [exact R|]. intros x Hx. apply Rl, I, Hx. Qed.

(** [p] overwrites the root [a] of the tree [t]; the tree is [t'] then (or [p] panics). *)
Definition sets (p : prog A S unit) (a : loc) (t : tnode) (r : lres tnode) : Prop :=
  forall h s f fp, repr h a t f -> NoDup f -> incl f fp ->
  safe p s fp h (fun _ s' fp' h' => s' = s /\ fp' = fp /\ (exists t', r = LOk t' /\ repr h' a t' f) /\
      forall x, In x fp -> x <> a -> nth_error h' x = nth_error h x) (fun e => r = LPanic e).
Lemma safe_keep (h : heap) s a (t : tnode) f fp (x : unit) :
  repr h a t f -> incl f fp ->
  safe (PRet x) s fp h (fun _ s' fp' h' => s' = s /\ fp' = fp /\ (exists t', LOk t = LOk t' /\ repr h' a t' f) /\
      forall x, In x fp -> x <> a -> nth_error h' x = nth_error h x) (fun e : string => LOk t = LPanic e).
Proof.
  intros R I. apply safe_ret. intros h' Rl. split; [reflexivity|]. split; [reflexivity|].
  split; [exists t; split; [reflexivity|eapply repr_rely; eassumption]|]. intros y Hy _. apply Rl, Hy.
Qed.
Lemma safe_set (h : heap) s a k b sh g ls l f fp b' sh' g' :
  reprs h ls l f -> nth_error h a = Some (CList k b sh g ls) -> ~ In a f -> incl (a :: f) fp ->
  safe (PWrite a (CList k b' sh' g' ls) (PRet tt)) s fp h
    (fun _ s' fp' h' => s' = s /\ fp' = fp /\ (exists t', LOk (TL k b' sh' g' l) = LOk t' /\ repr h' a t' (a :: f)) /\
      forall x, In x fp -> x <> a -> nth_error h' x = nth_error h x) (fun e : string => LOk (TL k b' sh' g' l) = LPanic e).
Proof.
  intros Rs E N I. apply safe_write; [apply I; left; reflexivity|eapply nth_lt, E|].
  apply safe_ret. intros h' Rl. split; [reflexivity|]. split; [reflexivity|]. split.
  - eexists. split; [reflexivity|]. eapply repr_rely; [eapply set_root; eassumption|exact I|exact Rl].
  - intros x Hx Nx. destruct Rl as [_ Rl]. rewrite Rl by exact Hx. apply update_other, Nx.
Qed.
Lemma sets_hpack w b a t : sets (h_hpack w b a) a t (LOk (hpack w b t)).
Proof.
  intros h s f fp R D I. inversion R as [a' t' E L|a' k bx sh g ls l f' E Rs]; subst.
  - apply (safe_read a (CLeaf t)); [apply I; left; reflexivity|exact E|]. cbn [pbind].
    replace (hpack w b t) with t by (destruct t; try reflexivity; destruct L). apply safe_keep; auto.
  - apply (safe_read a (CList k bx sh g ls)); [apply I; left; reflexivity|exact E|]. cbn [pbind].
    eapply safe_kids; [exact Rs|intros x Hx; apply I; right; exact Hx|].
    cbn. rewrite fold_fl. eapply safe_set; [exact Rs|exact E| |exact I]. inversion D; assumption.
Qed.
Lemma sets_vpack w b lim a t : sets (h_vpack w b lim a) a t (vpack w b lim t).
Proof.
  intros h s f fp R D I. inversion R as [a' t' E L|a' k bx sh g ls l f' E Rs]; subst.
  - apply (safe_read a (CLeaf t)); [apply I; left; reflexivity|exact E|]. cbn [pbind].
    replace (vpack w b lim t) with (LOk t) by (destruct t; try reflexivity; destruct L). apply safe_keep; auto.
  - apply (safe_read a (CList k bx sh g ls)); [apply I; left; reflexivity|exact E|]. cbn [pbind].
    eapply safe_kids; [exact Rs|intros x Hx; apply I; right; exact Hx|].
    apply safe_call. cbn. rewrite vfold_fl. destruct (vfold l dims0) as [d|e]; [|reflexivity].
    cbn. eapply safe_set; [exact Rs|exact E| |exact I]. inversion D; assumption.
Qed.
Lemma sets_shift w a t : sets (h_set_shift w a) a t (LOk (set_shift w t)).
Proof.
  intros h s f fp R D I. inversion R as [a' t' E L|a' k bx sh g ls l f' E Rs]; subst.
  - apply (safe_read a (CLeaf t)); [apply I; left; reflexivity|exact E|]. cbn [pbind].
    replace (set_shift w t) with t by (destruct t; try reflexivity; destruct L). apply safe_keep; auto.
  - apply (safe_read a (CList k bx sh g ls)); [apply I; left; reflexivity|exact E|]. cbn [pbind].
    cbn. eapply safe_set; [exact Rs|exact E| |exact I]. inversion D; assumption.
Qed.

(** An in-place change of one tree, which the tree program makes by a new binding. *)
Lemma tri_sets (p : prog A S unit) a t r : sets p a t r -> tri [(a, t)] (mlift r) p (fun t' _ W => W = [(a, t')]).
Proof.
  intros H h s fp O D. inversion O as [|? ? ? f f' R O']; subst. inversion O'; subst. rewrite app_nil_r in *.
  eapply safe_mono; [apply (H h s f f R D (incl_refl f))| |].
  - cbn. intros [] s' fp' h' (-> & -> & (t' & -> & R') & _). exists t', [(a, t')], (f ++ []).
    split; [reflexivity|]. split; [constructor; [exact R'|constructor]|]. rewrite app_nil_r. split; [exact D|].
    split; [apply incl_refl|reflexivity].
  - cbn. intros e ->. reflexivity.
Qed.
Lemma tri_set (p : prog A S unit) a t t' : sets p a t (LOk t') -> tri [(a, t)] (mret tt) p (fun _ _ W => W = [(a, t')]).
Proof.
  intros H h s fp O D. inversion O as [|? ? ? f f' R O']; subst. inversion O'; subst. rewrite app_nil_r in *.
  eapply safe_mono; [apply (H h s f f R D (incl_refl f))| |].
  - cbn. intros [] s' fp' h' (-> & -> & (t2 & E & R') & _). assert (t2 = t') by congruence. subst t2.
    exists tt, [(a, t')], (f ++ []).
    split; [reflexivity|]. split; [constructor; [exact R'|constructor]|]. rewrite app_nil_r. split; [exact D|].
    split; [apply incl_refl|reflexivity].
  - cbn. intros e E. discriminate E.
Qed.
Lemma tri_do {Y X} a t t' (hm : prog A S unit) W R (m : M S Y) (hk : unit -> prog A S X) Q :
  Permutation W ((a, t) :: R) -> sets hm a t (LOk t') ->
  tri ((a, t') :: R) m (hk tt) Q -> tri W m (pbind hm hk) Q.
Proof.
  intros P T K. change m with (mbind (mret (S := S) tt) (fun _ => m)).
  eapply (tri_use [(a, t)] R); [exact P|apply tri_set, T|]. cbn. intros y [] W' ->. exact K.
Qed.

(** A new tree [t], the root of which is [a], made of the objects [f] and new ones. *)
Definition built (h : heap) (fp f : list loc) (t : tnode) (a : loc) (fp' : list loc) (h' : heap) : Prop :=
  exists f', repr h' a t f' /\ NoDup f' /\ incl f' fp' /\ incl fp fp' /\
    (forall x, In x f' -> In x f \/ ~ In x fp) /\ bounded fp' h' /\ agree fp h h'.
Lemma built_rely h fp f t a fp' h' h2 : built h fp f t a fp' h' -> rely fp' h' h2 -> built h fp f t a fp' h2.
Proof.
  intros (f' & R & D & I & If & N & B & Ag) Rl. exists f'. split; [eapply repr_rely; eassumption|].
  repeat (split; [assumption|]). split.
  - intros x Hx. apply B in Hx. destruct Rl; lia.
  - intros x Hx. rewrite <- (Ag x Hx). apply Rl, If, Hx.
Qed.
Lemma bounded_rely fp h h' : bounded fp h -> rely fp h h' -> bounded fp h'.
Proof. intros B [L _] x Hx. apply B in Hx. lia. Qed.
Lemma reprs_rely fp h h' ls l f : reprs h ls l f -> incl f fp -> rely fp h h' -> reprs h' ls l f.
Proof. intros R I [_ Rl]. eapply reprs_frame; [exact R|]. intros x Hx. apply Rl, I, Hx. Qed.

(** Allocating a list and packing it. *)
Lemma safe_pack k ls l f fp (h : heap) s (pack : loc -> prog A S unit) r :
  reprs h ls l f -> NoDup f -> incl f fp -> bounded fp h ->
  (forall a, sets (pack a) a (list_of k l) r) ->
  safe (a <~ h_list_of k ls ;; _ <~ pack a ;; PRet a) s fp h
    (fun a s' fp' h' => s' = s /\ exists t, r = LOk t /\ built h fp f t a fp' h') (fun e => r = LPanic e).
Proof.
  intros Rs D I B P. apply safe_alloc. intros h1 R1. cbn [pbind].
  set (c := CList k (new_box f0 f0 f0) f0 gset0 ls). set (a := length h1).
  pose proof (reprs_rely fp h h1 ls l f Rs I R1) as Rs1.
  pose proof (bounded_rely fp h h1 B R1) as B1.
  assert (Na : ~ In a fp) by (intro H; apply B1 in H; unfold a in H; lia).
  assert (Ra : repr (h1 ++ [c]) a (list_of k l) (a :: f)).
  { eapply repr_list; [apply nth_new|]. eapply reprs_frame; [exact Rs1|]. intros x Hx. apply nth_error_app1, B1, I, Hx. }
  assert (Da : NoDup (a :: f)) by (constructor; [intro H; apply Na, I, H|exact D]).
  eapply safe_bind; [apply (P a (h1 ++ [c]) s (a :: f) (a :: fp) Ra Da)|].
  - intros x [<-|Hx]; [left; reflexivity|right; apply I, Hx].
  - cbn. intros [] s' fp' h2 (-> & -> & (t & -> & R2) & K). cbn. intros h3 R3.
    split; [reflexivity|]. exists t. split; [reflexivity|]. eapply built_rely; [|exact R3].
    exists (a :: f). split; [exact R2|]. split; [exact Da|].
    split; [intros x [<-|Hx]; [left; reflexivity|right; apply I, Hx]|].
    split; [apply incl_tl, incl_refl|]. split; [intros x [<-|Hx]; auto|].
    assert (K2 : forall x, In x fp -> nth_error h2 x = nth_error h1 x).
    { intros x Hx. rewrite (K x (or_intror Hx)) by (intros ->; auto). apply nth_error_app1, B1, Hx. }
    split.
    + intros x [<-|Hx]; [eapply repr_bound; [exact R2|left; reflexivity]|].
      apply nth_error_Some. rewrite (K2 x Hx). apply nth_error_Some, B1, Hx.
    + intros x Hx. rewrite (K2 x Hx). apply R1, Hx.
Qed.

End HeapFacts.
