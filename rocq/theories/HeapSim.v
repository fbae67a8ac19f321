(** The layout code through pointers does what it does on trees. *)
From Coq Require Import ZArith String Ascii List Bool Lia Permutation.
From Verif Require Import Utf8 Token Ast SymTable SetTable MtexTable Parser Symbols Arith Box Ship Mtex Heap HeapSpec HeapFacts.
Import ListNotations.
Local Open Scope string_scope.
Local Open Scope list_scope.
Local Open Scope nat_scope.

Section HeapSim.
Context {A : arith} {S : Type}.
Notation F := (Arith.F A).
Notation tnode := (@Box.tnode A).
Notation heap := (heap A).
Notation HM := (prog A S).
Variable be : @backend A S.

(** ** Scaling *)
Definition scales (m : tnode -> M S tnode) (hm : nat -> loc -> HM unit) (t : tnode) : Prop :=
  forall (h : heap) (s : S) a f n, repr h a t f -> NoDup f -> length f <= n ->
  safe (hm n a) s f h (fun _ s' fp' h' => fp' = f /\ exists t', m t s = LOk (t', s') /\ repr h' a t' f)
    (fun e => m t s = LPanic e).

Lemma app_nil {X} (l1 l2 : list X) : l1 ++ l2 = l2 -> l1 = [].
Proof. intro E. apply (f_equal (@length X)) in E. rewrite app_length in E. destruct l1; [reflexivity|cbn in E; lia]. Qed.

Lemma scales_list m (hm : nat -> loc -> HM unit) l :
  Forall (scales m hm) l ->
  forall (h : heap) (s : S) ls f n, reprs h ls l f -> NoDup f -> length f <= n ->
  safe (miter (hm n) ls) s f h (fun _ s' fp' h' => fp' = f /\ exists l', mmap m l s = LOk (l', s') /\ reprs h' ls l' f)
    (fun e => mmap m l s = LPanic e).
Proof.
  induction 1 as [|t l T Ts IH]; intros h s ls fp n R D L.
  - inversion R; subst. apply safe_ret. intros h' _. split; [reflexivity|]. exists []. split; [reflexivity|constructor].
  - inversion R as [|a ls' t' l' f fs R1 Rs]; subst. apply nodup_app in D as (D1 & D2 & D3).
    rewrite app_length in L.
    change (miter (hm n) (a :: ls')) with (_ <~ hm n a ;; miter (hm n) ls').
    eapply safe_bind.
    + eapply safe_mono; [eapply (safe_frame _ s f (f ++ fs) fs h h); [apply (T h s a f n R1 D1); lia| | | | |]| |].
      * apply incl_appl, incl_refl.
      * apply incl_appr, incl_refl.
      * exact D3.
      * exact (reprs_bound h ls' l fs Rs).
      * intros x _. reflexivity.
      * intros x s' g h' q. exact q.
      * cbn. unfold mbind. intros e ->. reflexivity.
    + cbn beta. intros _ s' g h' (new & -> & Dj & Ag & En & t' & Et & R'). apply app_nil in En. subst new. cbn [app] in *.
      assert (Rs' : reprs h' ls' l fs) by (eapply reprs_frame; [exact Rs|exact Ag]).
      eapply safe_mono; [eapply (safe_frame _ s' fs (f ++ fs) f h' h'); [apply (IH h' s' ls' fs n Rs' D2); lia| | | | |]| |].
      * apply incl_appr, incl_refl.
      * apply incl_appl, incl_refl.
      * intros x Hx Hy. exact (D3 x Hy Hx).
      * exact (repr_bound h' a t' f R').
      * intros x _. reflexivity.
      * cbn beta. intros _ s2 g h2 (new & -> & _ & Ag2 & En & l' & El & R2). apply app_nil in En. subst new.
        split; [reflexivity|]. exists (t' :: l'). split.
        { cbn. unfold mbind. rewrite Et. fold (mmap m l). rewrite El. reflexivity. }
        constructor; [eapply repr_frame; [exact R'|exact Ag2]|exact R2].
      * cbn. unfold mbind. rewrite Et. fold (mmap m l). intros e ->. reflexivity.
Qed.

Lemma shrink_leaf (t : tnode) s t' s' : is_leaf t -> shrink be t s = LOk (t', s') -> is_leaf t'.
Proof.
  destruct t; cbn; unfold mret; intros []; try (intro E; inversion E; exact I).
  unfold mbind. destruct (acc_update be _ s) as [[c' s0]|e]; intro E; inversion E; exact I.
Qed.
Lemma grow_leaf (t : tnode) s t' s' : is_leaf t -> grow be t s = LOk (t', s') -> is_leaf t'.
Proof.
  destruct t; cbn; unfold mret; intros []; try (intro E; inversion E; exact I).
  unfold mbind. destruct (acc_update be _ s) as [[c' s0]|e]; intro E; inversion E; exact I.
Qed.

(** Both: a leaf is read, scaled by [m] and written. *)
Lemma scale_leaf (m : tnode -> M S tnode) t a (h : heap) s :
  (forall s t' s', m t s = LOk (t', s') -> is_leaf t') -> nth_error h a = Some (CLeaf t) ->
  safe (t' <~ call (m t) ;; write a (CLeaf t')) s [a] h
    (fun _ s' fp' h' => fp' = [a] /\ exists t', m t s = LOk (t', s') /\ repr h' a t' [a]) (fun e => m t s = LPanic e).
Proof.
  intros Lf E. apply safe_call. pose proof (Lf s) as P. destruct (m t s) as [[t' s']|e]; [|reflexivity].
  specialize (P t' s' eq_refl). cbn [pbind]. apply safe_write; [left; reflexivity|eapply nth_lt, E|].
  apply safe_ret. intros h' [_ R]. split; [reflexivity|]. exists t'. split; [reflexivity|].
  constructor; [|exact P]. rewrite R by (left; reflexivity). apply update_same. eapply nth_lt, E.
Qed.
(** A list is read, its children are scaled, and it is read again and written. *)
Lemma scale_node (m : tnode -> M S tnode) (hm : nat -> loc -> HM unit) k b sh g l ls a f (h : heap) s n
    (fin : cell A -> HM unit) b' sh' g' r :
  Forall (scales m hm) l -> nth_error h a = Some (CList k b sh g ls) -> reprs h ls l f -> NoDup (a :: f) -> length f <= n ->
  (forall s, r s = match mmap m l s with LOk (l', s') => LOk (TL k b' sh' g' l', s') | LPanic e => LPanic e end) ->
  fin (CList k b sh g ls) = write a (CList k b' sh' g' ls) ->
  safe (_ <~ miter (hm n) ls ;; c <~ read a ;; fin c) s (a :: f) h
    (fun _ s' fp' h' => fp' = a :: f /\ exists t', r s = LOk (t', s') /\ repr h' a t' (a :: f)) (fun e => r s = LPanic e).
Proof.
  intros IH E Rs D L Hr Fi. apply NoDup_cons_iff in D as [Na D].
  eapply safe_bind.
  - eapply safe_mono; [eapply (safe_frame _ s f (a :: f) [a] h h); [apply (scales_list m hm l IH h s ls f n Rs D L)| | | | |]| |].
    + apply incl_tl, incl_refl.
    + intros x [<-|[]]. left. reflexivity.
    + intros x Hx [<-|[]]. exact (Na Hx).
    + intros x [<-|[]]. eapply nth_lt, E.
    + intros x _. reflexivity.
    + intros x s' g0 h' q. exact q.
    + cbn. rewrite Hr. intros e ->. reflexivity.
  - cbn beta. intros _ s' g0 h' (new & -> & Dj & Ag & En & l' & El & R'). apply app_nil in En. subst new. cbn [app] in *.
    assert (E' : nth_error h' a = Some (CList k b sh g ls)) by (rewrite <- E; apply Ag; left; reflexivity).
    unfold read at 1; cbn [pbind]; eapply safe_read; [left; reflexivity|exact E'|]. cbn [pbind]. rewrite Fi.
    apply safe_write; [left; reflexivity|eapply nth_lt, E'|]. apply safe_ret. intros h2 R2.
    split; [reflexivity|]. exists (TL k b' sh' g' l'). split; [rewrite Hr, El; reflexivity|].
    eapply repr_rely; [eapply set_root; eassumption|apply incl_refl|exact R2].
Qed.

Lemma shrinks t : scales (shrink be) (h_shrink_n be) t.
Proof.
  induction t as [b|c|c|b|g|z w|k b sh g l IH] using tnode_ind'.
  1-6: intros h s a fp n R D L; inversion R as [a' t' E Lt|]; subst;
    (destruct n as [|n]; [cbn in L; lia|]); cbn [h_shrink_n];
    (unfold read at 1; cbn [pbind]; eapply safe_read; [left; reflexivity|exact E|]); cbn [pbind];
    apply (scale_leaf (shrink be)); [intros; eapply shrink_leaf; [|eassumption]; exact I|exact E].
  intros h s a fp n R D L. inversion R as [|a' k' b' sh' g' ls l' f E Rs]; subst; [contradiction|].
  destruct n as [|n]; [cbn in L; lia|]. cbn [length] in L.
  cbn [h_shrink_n]. unfold read at 1; cbn [pbind]; eapply safe_read; [left; reflexivity|exact E|]. cbn [pbind].
  destruct (b_size (box_shrink b) <? num_size_levels)%Z eqn:Z;
    (eapply scale_node; [exact IH|exact E|exact Rs|exact D|lia| |cbv zeta; rewrite Z; reflexivity]);
    intro s0; cbn; unfold mbind, mret; rewrite Z; reflexivity.
Qed.
Lemma grows t : scales (grow be) (h_grow_n be) t.
Proof.
  induction t as [b|c|c|b|g|z w|k b sh g l IH] using tnode_ind'.
  1-6: intros h s a fp n R D L; inversion R as [a' t' E Lt|]; subst;
    (destruct n as [|n]; [cbn in L; lia|]); cbn [h_grow_n];
    (unfold read at 1; cbn [pbind]; eapply safe_read; [left; reflexivity|exact E|]); cbn [pbind];
    apply (scale_leaf (grow be)); [intros; eapply grow_leaf; [|eassumption]; exact I|exact E].
  intros h s a fp n R D L. inversion R as [|a' k' b' sh' g' ls l' f E Rs]; subst; [contradiction|].
  destruct n as [|n]; [cbn in L; lia|]. cbn [length] in L.
  cbn [h_grow_n]. unfold read at 1; cbn [pbind]; eapply safe_read; [left; reflexivity|exact E|]. cbn [pbind].
  eapply scale_node; [exact IH|exact E|exact Rs|exact D|lia| |reflexivity].
  intro s0. reflexivity.
Qed.

(** There are no more nodes than objects. *)
Lemma nodes_le_heap (h : heap) a t fp : repr h a t fp -> NoDup fp -> length fp <= length h.
Proof.
  intros R D. rewrite <- (seq_length (length h) 0). apply NoDup_incl_length; [exact D|].
  intros x Hx. apply in_seq. split; [lia|]. cbn. eapply repr_bound; eauto.
Qed.

Lemma tri_scale m (hm : nat -> loc -> HM unit) a t :
  scales m hm t -> tri [(a, t)] (m t) (PSize (fun n => hm n a)) (fun t' _ W => W = [(a, t')]).
Proof.
  intros Sc h s fp O D. inversion O as [|? ? ? f f' R O']; subst. inversion O'; subst. rewrite app_nil_r in *.
  apply safe_size. intros n Ln. pose proof (nodes_le_heap h a t f R D).
  eapply safe_mono; [apply (Sc h s a f n R D); lia| |auto].
  cbn. intros _ s' fp' h' (-> & t' & E & R'). exists t', [(a, t')], (f ++ []).
  split; [exact E|]. split; [constructor; [exact R'|constructor]|]. rewrite app_nil_r. split; [exact D|].
  split; [apply incl_refl|reflexivity].
Qed.
Lemma tri_shrink a t : tri [(a, t)] (shrink be t) (h_shrink be a) (fun t' _ W => W = [(a, t')]).
Proof. apply (tri_scale (shrink be) (h_shrink_n be)), shrinks. Qed.
Lemma tri_grow a t : tri [(a, t)] (grow be t) (h_grow be a) (fun t' _ W => W = [(a, t')]).
Proof. apply (tri_scale (grow be) (h_grow_n be)), grows. Qed.

(** ** The list constructors *)
Lemma tri_kern : forall l ls, length ls = length l ->
  tri (combine ls l) (kern_list be l) (h_kern_list be ls)
    (fun l' ls' W => Permutation W (combine ls' l') /\ length ls' = length l').
Proof.
  induction l as [|t l IH]; intros [|a ls] L; try discriminate L.
  - apply tri_ret. split; [constructor|reflexivity].
  - cbn in L. apply Nat.succ_inj in L. cbn [combine kern_list h_kern_list].
    eapply tri_look with (t := t); [left; reflexivity|].
    assert (K : tri ((a, t) :: combine ls l)
      (dist <- kerning be t (hd_error l) ;; r <- kern_list be l ;;
       mret (if negb (feqb A dist f0) then t :: new_kern dist :: r else t :: r))
      (dist <~ call (kerning be (fl t) (option_map fl (hd_error l))) ;;
       if negb (feqb A dist f0) then
         k <~ new (new_kern dist) ;; r <~ h_kern_list be ls ;; PRet (a :: k :: r)
       else r <~ h_kern_list be ls ;; PRet (a :: r))
      (fun l' ls' W => Permutation W (combine ls' l') /\ length ls' = length l')).
    { eapply tri_call; [intro s; apply kerning_fl|]. intro dist. destruct (negb (feqb A dist f0)).
      - apply tri_new; [exact I|]. intro k.
        eapply (tri_use (combine ls l) [(k, new_kern dist); (a, t)]).
        + eapply Permutation_trans; [|apply Permutation_app_comm]. reflexivity.
        + apply IH, L.
        + intros l' ls' W' [P L']. apply tri_ret. cbn. split; [|congruence].
          eapply Permutation_trans; [apply Permutation_app_tail, P|].
          eapply Permutation_trans; [apply Permutation_app_comm|]. cbn. apply perm_swap.
      - eapply (tri_use (combine ls l) [(a, t)]).
        + eapply Permutation_trans; [|apply Permutation_app_comm]. reflexivity.
        + apply IH, L.
        + intros l' ls' W' [P L']. apply tri_ret. cbn. split; [|congruence].
          eapply Permutation_trans; [apply Permutation_app_tail, P|].
          apply (Permutation_app_comm _ [(a, t)]). }
    destruct ls as [|b ls], l as [|u l]; try discriminate L; [exact K|].
    change (tri ((a, t) :: combine (b :: ls) (u :: l))
      (dist <- kerning be t (hd_error (u :: l)) ;; r <- kern_list be (u :: l) ;;
       mret (if negb (feqb A dist f0) then t :: new_kern dist :: r else t :: r))
      (y <~ look b ;; dist <~ call (kerning be (fl t) (Some y)) ;;
       if negb (feqb A dist f0) then
         k <~ new (new_kern dist) ;; r <~ h_kern_list be (b :: ls) ;; PRet (a :: k :: r)
       else r <~ h_kern_list be (b :: ls) ;; PRet (a :: r))
      (fun l' ls' W => Permutation W (combine ls' l') /\ length ls' = length l')).
    eapply tri_look with (t := u); [right; left; reflexivity|]. exact K.
Qed.

Lemma tri_pack k ls l (pack : loc -> HM unit) r : length ls = length l ->
  (forall a, sets (pack a) a (list_of k l) r) ->
  tri (combine ls l) (mlift r) (a <~ h_list_of k ls ;; _ <~ pack a ;; PRet a) one.
Proof.
  intros L P h s f O D. assert (Rs : reprs h ls l f) by (apply owns_reprs; auto).
  eapply safe_mono; [apply (safe_pack k ls l f f h s pack r Rs D (incl_refl f) (owns_bound h _ f O) P)| |].
  - cbn. intros a s' fp' h' (-> & t & -> & f' & R & D' & I & _). exists t, [(a, t)], (f' ++ []).
    split; [reflexivity|]. split; [constructor; [exact R|constructor]|]. rewrite app_nil_r.
    split; [exact D'|]. split; [exact I|reflexivity].
  - cbn. intros e ->. reflexivity.
Qed.
Lemma tri_hlist_of l ls b : length ls = length l -> tri (combine ls l) (hlist_of be l b) (h_hlist_of be ls b) one.
Proof.
  intro L. unfold hlist_of, h_hlist_of.
  assert (K : forall (l : list tnode) (ls : list loc) (W : @world A), Permutation W (combine ls l) -> length ls = length l ->
    tri (S := S) W (mret (hpack f0 true (list_of KHList l)))
      (a <~ h_list_of KHList ls ;; _ <~ h_hpack f0 true a ;; PRet a) one).
  { intros l0 ls0 W P L0. eapply tri_perm; [exact P|].
    apply (tri_pack KHList ls0 l0 _ (LOk (hpack f0 true (list_of KHList l0))) L0). intro a. apply sets_hpack. }
  destruct b.
  - eapply tri_bind; [apply tri_kern, L|]. intros l' ls' W [P L']. apply K; assumption.
  - apply (K l ls); [apply Permutation_refl|exact L].
Qed.
Lemma tri_vlist_of (l : list tnode) (ls : list loc) : length ls = length l -> tri (S := S) (combine ls l) (vlist_of l) (h_vlist_of ls) one.
Proof.
  intro L. unfold h_vlist_of. apply (tri_pack KVList ls l _ _ L). intro a. apply sets_vpack.
Qed.

(** Reordering what is owned. *)
Lemma perm_pull {X} (x : X) l1 l2 l : Permutation l (l1 ++ l2) -> Permutation (x :: l) (l1 ++ x :: l2).
Proof. apply Permutation_cons_app. Qed.

Lemma tri_hlist l ls b W : Permutation W (combine ls l) -> length ls = length l ->
  tri W (hlist_of be l b) (h_hlist_of be ls b) one.
Proof. intros P L. eapply tri_perm; [exact P|]. apply tri_hlist_of, L. Qed.

End HeapSim.

Ltac perm_step :=
  match goal with
  | |- Permutation ?a ?a => reflexivity
  | |- Permutation (?x :: ?l) (?x :: ?r) => apply perm_skip
  | |- Permutation (?x :: ?l) ?r => 
    let rec split acc r :=
      match r with
      | x :: ?t => let acc' := eval cbn in (rev acc) in
          change (Permutation (x :: l) (acc' ++ x :: t)); apply Permutation_cons_app; cbn [app]
      | ?y :: ?t => split (y :: acc) t
      end in
    match type of r with list ?T => split (@nil T) r end
  end.
Ltac perm := cbn [combine app]; first [reflexivity|repeat perm_step].
