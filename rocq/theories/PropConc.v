(** C95: goroutines that typeset and draw at the same time do not disturb each other. *)
From Coq Require Import ZArith QArith Qcanon String Ascii List Bool Lia Permutation Floats.
From Verif Require Import Utf8 Token Ast Parser PanicFacts Symbols Arith Box Ship Mtex Ttf Render.
From Verif Require Import Heap HeapSpec HeapFacts HeapSim HeapSim2 HeapShip ConcSpec PropHeap.
From Verif Require Import Exact MtexFacts PropPack PropMtex PropTtf PropImage.
Import ListNotations.
Local Open Scope string_scope.
Local Open Scope list_scope.
Local Open Scope nat_scope.

(** ** Lists *)
Lemma nth_set_same {X} (x : X) : forall l i, i < length l -> nth_error (set_nth i x l) i = Some x.
Proof. induction l as [|y l IH]; intros [|i] L; cbn in *; try lia; [reflexivity|apply IH; lia]. Qed.
Lemma nth_set_other {X} (x : X) : forall l i j, j <> i -> nth_error (set_nth i x l) j = nth_error l j.
Proof.
  induction l as [|y l IH]; intros [|i] [|j] N; cbn; try reflexivity; try (exfalso; apply N; reflexivity).
  apply IH. congruence.
Qed.

(** ** The invariant *)
Section Inv.
Context {A : arith} {S X : Type}.
Notation heap := (heap A).
Notation thread := (@thread A S X).
Notation conf := (@conf A S X).
Variable h0 : heap.
(** What goroutine [i] is to end with. *)
Variable Q : nat -> X -> S -> list loc -> heap -> Prop.
Variable E : nat -> string -> Prop.

(** [own i] are the nodes goroutine [i] has made. *)
Definition inv (c : conf) (own : nat -> list loc) : Prop :=
  length h0 <= length (c_heap c) /\
  (forall i t, nth_error (c_threads c) i = Some t -> safe (th_prog t) (th_state t) (own i) (c_heap c) (Q i) (E i)) /\
  (forall i a, In a (own i) -> length h0 <= a < length (c_heap c)) /\
  (forall i j a, In a (own i) -> In a (own j) -> i = j) /\
  (forall i x, In (i, x) (c_trace c) -> In (node_of x) (own i)) /\
  (forall a, a < length h0 -> nth_error (c_heap c) a = nth_error h0 a).

Lemma inv_same (c : conf) own i t (t' : thread) acc :
  inv c own -> nth_error (c_threads c) i = Some t ->
  safe (th_prog t') (th_state t') (own i) (c_heap c) (Q i) (E i) ->
  (forall x, In x acc -> In (node_of x) (own i)) ->
  inv (mk_conf (c_heap c) (set_nth i t' (c_threads c)) (c_trace c ++ map (pair i) acc)) own.
Proof.
  intros (L & Sf & B & D & Tr & Old) Ei Sf' Ac. split; [exact L|]. cbn. split; [|split; [exact B|split; [exact D|split; [|exact Old]]]].
  - intros j u Ej. destruct (Nat.eq_dec j i) as [->|N].
    + rewrite nth_set_same in Ej by (apply nth_error_Some; rewrite Ei; discriminate). injection Ej as <-. exact Sf'.
    + rewrite nth_set_other in Ej by exact N. apply Sf, Ej.
  - intros j x Hx. apply in_app_or in Hx as [Hx|Hx]; [apply Tr, Hx|].
    apply in_map_iff in Hx as (y & Ey & Hy). injection Ey as <- <-. apply Ac, Hy.
Qed.

Lemma inv_step (c : conf) own i : inv c own -> exists own', inv (cstep c i) own' /\ forall j, incl (own j) (own' j).
Proof.
  intros I. unfold cstep. destruct (nth_error (c_threads c) i) as [[p s]|] eqn:Ei; [|exists own; split; [exact I|intro; apply incl_refl]].
  assert (Keep : exists own', inv c own' /\ forall j, incl (own j) (own' j)) by (exists own; split; [exact I|intro; apply incl_refl]).
  pose proof I as (L & Sf & B & D & Tr & Old). pose proof (Sf i _ Ei) as Sp. cbn [th_prog th_state] in Sp.
  destruct p as [x|e|a k|a x k|x k|k|Y m k]; specialize (Sp (c_heap c) (rely_refl _ _)); unfold tstep; cbn [th_prog th_state] in *.
  - exact Keep.
  - exact Keep.
  - destruct Sp as (Ia & x & Ea & Sp). rewrite Ea. exists own. split; [|intro; apply incl_refl].
    apply (inv_same c own i _ _ [Reads a] I Ei); [exact Sp|]. intros y [<-|[]]. exact Ia.
  - destruct Sp as (Ia & La & Sp). exists own. split; [|intro; apply incl_refl]. split; [cbn; rewrite update_length; exact L|]. cbn. split; [|split; [|split; [exact D|split]]].
    + intros j u Ej. destruct (Nat.eq_dec j i) as [->|N].
      * rewrite nth_set_same in Ej by (apply nth_error_Some; rewrite Ei; discriminate). injection Ej as <-. exact Sp.
      * rewrite nth_set_other in Ej by exact N. eapply safe_rely; [apply Sf, Ej|]. split; [rewrite update_length; lia|].
        intros y Hy. apply update_other. intros ->. apply N. eapply D; eassumption.
    + intros j y Hy. rewrite update_length. apply (B j y Hy).
    + intros j y Hy. apply in_app_or in Hy as [Hy|[Hy|[]]]; [apply Tr, Hy|]. injection Hy as <- <-. exact Ia.
    + intros y Hy. rewrite update_other; [apply Old, Hy|]. intros ->. apply B in Ia. lia.
  - set (n := length (c_heap c)) in *.
    exists (fun j => if Nat.eqb j i then n :: own j else own j). split.
    2:{ intros j. destruct (Nat.eqb j i); [apply incl_tl|]; apply incl_refl. }
    split; [cbn; rewrite app_length; lia|]. cbn. split; [|split; [|split; [|split]]].
    + intros j u Ej. destruct (Nat.eq_dec j i) as [->|N].
      * rewrite nth_set_same in Ej by (apply nth_error_Some; rewrite Ei; discriminate). injection Ej as <-.
        rewrite Nat.eqb_refl. exact Sp.
      * rewrite nth_set_other in Ej by exact N. rewrite (proj2 (Nat.eqb_neq j i) N).
        eapply safe_rely; [apply Sf, Ej|]. split; [rewrite app_length; lia|].
        intros y Hy. apply nth_error_app1, (B j y Hy).
    + intros j y Hy. rewrite app_length. cbn. destruct (Nat.eqb j i).
      * destruct Hy as [<-|Hy]; [unfold n; lia|]. apply B in Hy. unfold n in *. lia.
      * apply B in Hy. unfold n in *. lia.
    + intros j j' y Hy Hy'. destruct (Nat.eqb_spec j i) as [->|N], (Nat.eqb_spec j' i) as [->|N']; try reflexivity.
      * destruct Hy as [<-|Hy]; [apply B in Hy'; unfold n in Hy'; lia|eapply D; eassumption].
      * destruct Hy' as [<-|Hy']; [apply B in Hy; unfold n in Hy; lia|eapply D; eassumption].
      * eapply D; eassumption.
    + intros j y Hy. apply in_app_or in Hy as [Hy|[Hy|[]]].
      * apply Tr in Hy. destruct (Nat.eqb j i); [right|]; exact Hy.
      * injection Hy as <- <-. rewrite Nat.eqb_refl. left. reflexivity.
    + intros y Hy. rewrite nth_error_app1 by (unfold n in *; lia). apply Old, Hy.
  - exists own. split; [|intro; apply incl_refl]. apply (inv_same c own i _ _ [] I Ei); [exact Sp|intros y []].
  - exists own. split; [|intro; apply incl_refl].
    cbn in Sp. destruct (m s) as [[y s']|e]; apply (inv_same c own i _ _ [] I Ei).
    + exact Sp.
    + intros z [].
    + apply safe_panic. exact Sp.
    + intros z [].
Qed.

Lemma inv_exec sched : forall (c : conf) own, inv c own -> exists own', inv (exec sched c) own' /\ forall j, incl (own j) (own' j).
Proof.
  induction sched as [|i sched IH]; intros c own I; [exists own; split; [exact I|intro; apply incl_refl]|].
  destruct (inv_step c own i I) as (own1 & I1 & M1). destruct (IH (cstep c i) own1 I1) as (own2 & I2 & M2).
  exists own2. split; [exact I2|]. intros j x Hx. apply M2, M1, Hx.
Qed.

Lemma inv_start (ts : list thread) :
  (forall i t, nth_error ts i = Some t -> safe (th_prog t) (th_state t) [] h0 (Q i) (E i)) ->
  inv (start h0 ts) (fun _ => []).
Proof.
  intros Sf. split; [cbn; lia|]. split; [exact Sf|]. cbn. repeat split; try contradiction.
Qed.

Lemma step_length (c : conf) i : length (c_threads (cstep c i)) = length (c_threads c).
Proof.
  unfold cstep. destruct (nth_error (c_threads c) i) as [t|]; [|reflexivity].
  destruct (tstep t (c_heap c)) as [[[t' h'] acc]|]; [apply set_nth_length|reflexivity].
Qed.
Lemma exec_length sched : forall c : conf, length (c_threads (exec sched c)) = length (c_threads c).
Proof. induction sched as [|i sched IH]; intro c; [reflexivity|]. change (exec (i :: sched) c) with (exec sched (cstep c i)). rewrite IH. apply step_length. Qed.

(** ** Progress *)
Lemma exec_app s1 s2 (c : conf) : exec (s1 ++ s2) c = exec s2 (exec s1 c).
Proof. apply fold_left_app. Qed.
Lemma step_other (c : conf) i j : i <> j -> nth_error (c_threads (cstep c i)) j = nth_error (c_threads c) j.
Proof.
  intro N. unfold cstep. destruct (nth_error (c_threads c) i) as [t|]; [|reflexivity].
  destruct (tstep t (c_heap c)) as [[[t' h'] acc]|]; [apply nth_set_other; congruence|reflexivity].
Qed.
Lemma step_ended (c : conf) i j t : nth_error (c_threads c) j = Some t -> result t <> None ->
  nth_error (c_threads (cstep c i)) j = Some t.
Proof.
  intros Ej R. destruct (Nat.eq_dec i j) as [->|N]; [|rewrite step_other; assumption].
  unfold cstep. rewrite Ej. unfold tstep. unfold result in R. destruct (th_prog t); try exact Ej; congruence.
Qed.
Lemma exec_ended sched : forall (c : conf) j t, nth_error (c_threads c) j = Some t -> result t <> None ->
  nth_error (c_threads (exec sched c)) j = Some t.
Proof.
  induction sched as [|i sched IH]; intros c j t Ej R; [exact Ej|]. change (exec (i :: sched) c) with (exec sched (cstep c i)). apply IH; [apply step_ended; assumption|exact R].
Qed.
Lemma steps_of_plus (sg : nat -> nat) n m : steps_of sg (n + m) = steps_of sg n ++ map sg (seq n m).
Proof. unfold steps_of. rewrite seq_app, map_app. reflexivity. Qed.
(** Until the next turn of [j] nothing happens to it. *)
Lemma next_turn (sg : nat -> nat) j n : always_again sg j ->
  exists m, n <= m /\ sg m = j /\ forall k, n <= k < m -> sg k <> j.
Proof.
  intro F. destruct (F n) as (m & L & Em). revert n L. induction m as [m IH] using lt_wf_ind. intros n L.
  destruct (Nat.eq_dec n m) as [->|N]; [exists m; repeat split; auto; lia|].
  destruct (in_dec Nat.eq_dec j (map sg (seq n (m - n)))) as [I|I].
  - apply in_map_iff in I as (k & Ek & Ik). apply in_seq in Ik. apply (IH k); [lia|exact Ek|lia].
  - exists m. repeat split; auto. intros k Hk Ek. apply I. apply in_map_iff. exists k. split; [exact Ek|]. apply in_seq. lia.
Qed.
Lemma exec_others l : forall (c : conf) j, (forall i, In i l -> i <> j) -> nth_error (c_threads (exec l c)) j = nth_error (c_threads c) j.
Proof.
  induction l as [|i l IH]; intros c j N; [reflexivity|]. change (exec (i :: l) c) with (exec l (cstep c i)). rewrite IH by (intros k Hk; apply N; right; exact Hk).
  apply step_other, N. left. reflexivity.
Qed.
Lemma to_turn (sg : nat -> nat) j n (c : conf) t : always_again sg j -> nth_error (c_threads (exec (steps_of sg n) c)) j = Some t ->
  exists m, n <= m /\ sg m = j /\ nth_error (c_threads (exec (steps_of sg m) c)) j = Some t.
Proof.
  intros F Ej. destruct (next_turn sg j n F) as (m & L & Em & N). exists m. split; [exact L|]. split; [exact Em|].
  replace m with (n + (m - n)) by lia. rewrite steps_of_plus, exec_app, exec_others; [exact Ej|].
  intros i Hi. apply in_map_iff in Hi as (k & <- & Hk). apply in_seq in Hk. apply N. lia.
Qed.
Lemma take_turn (sg : nat -> nat) m (c : conf) : exec (steps_of sg (Datatypes.S m)) c = cstep (exec (steps_of sg m) c) (sg m).
Proof. rewrite <- Nat.add_1_r, steps_of_plus, exec_app. reflexivity. Qed.

Lemma ends (sg : nat -> nat) j (p : prog A S X) : always_again sg j ->
  forall s n (c : conf), nth_error (c_threads (exec (steps_of sg n) c)) j = Some (mk_thread p s) ->
  exists m t, n <= m /\ nth_error (c_threads (exec (steps_of sg m) c)) j = Some t /\ result t <> None.
Proof.
  intro F. induction p as [x|e|a k IH|a x k IH|x k IH|k IH|Y m k IH]; intros s n c Ej.
  1-2: eexists n, _; split; [lia|]; split; [exact Ej|discriminate].
  all: destruct (to_turn sg j n c _ F Ej) as (m' & Lm & Em & Et);
    assert (Lt : j < length (c_threads (exec (steps_of sg m') c))) by (apply nth_error_Some; rewrite Et; discriminate);
    pose proof (take_turn sg m' c) as TT; rewrite Em in TT; unfold cstep in TT; rewrite Et in TT; unfold tstep in TT; cbn [th_prog th_state] in TT.
  - destruct (nth_error (c_heap (exec (steps_of sg m') c)) a) as [x|].
    + destruct (IH x s (Datatypes.S m') c) as (m2 & t & L2 & E2 & R); [rewrite TT; apply nth_set_same, Lt|].
      exists m2, t. split; [lia|]. split; assumption.
    + exists (Datatypes.S m'), (mk_thread (PPanic bad_addr) s). split; [lia|].
      split; [rewrite TT; apply nth_set_same, Lt|discriminate].
  - destruct (IH s (Datatypes.S m') c) as (m2 & t & L2 & E2 & R); [rewrite TT; apply nth_set_same, Lt|].
    exists m2, t. split; [lia|]. split; assumption.
  - destruct (IH (length (c_heap (exec (steps_of sg m') c))) s (Datatypes.S m') c) as (m2 & t & L2 & E2 & R); [rewrite TT; apply nth_set_same, Lt|].
    exists m2, t. split; [lia|]. split; assumption.
  - destruct (IH (length (c_heap (exec (steps_of sg m') c))) s (Datatypes.S m') c) as (m2 & t & L2 & E2 & R); [rewrite TT; apply nth_set_same, Lt|].
    exists m2, t. split; [lia|]. split; assumption.
  - destruct (m s) as [[y s']|e].
    + destruct (IH y s' (Datatypes.S m') c) as (m2 & t & L2 & E2 & R); [rewrite TT; apply nth_set_same, Lt|].
      exists m2, t. split; [lia|]. split; assumption.
    + exists (Datatypes.S m'), (mk_thread (PPanic e) s). split; [lia|].
      split; [rewrite TT; apply nth_set_same, Lt|discriminate].
Qed.
End Inv.

(** A pointer is the root of one tree at most. *)
Lemma repr_det {A : arith} (h : heap A) : forall a t fp, repr h a t fp -> forall t' fp', repr h a t' fp' -> t = t' /\ fp = fp'.
Proof.
  intros a t fp R.
  refine (repr_mind A h (fun a t fp _ => forall t' fp', repr h a t' fp' -> t = t' /\ fp = fp')
    (fun ls l fp _ => forall l' fp', reprs h ls l' fp' -> l = l' /\ fp = fp') _ _ _ _ a t fp R).
  - intros a0 t0 e i t' fp' H. inversion H; subst; rewrite e in *; [|congruence].
    match goal with K : Some _ = Some _ |- _ => injection K as <- end. auto.
  - intros a0 k b sh g ls l fp0 e r IH t' fp' H. inversion H; subst; rewrite e in *; [congruence|].
    match goal with K : Some _ = Some _ |- _ => injection K as <- <- <- <- <- end.
    match goal with K : reprs h ls _ _ |- _ => destruct (IH _ _ K) as [<- <-] end. auto.
  - intros l' fp' H. inversion H; subst. auto.
  - intros a0 ls t0 l fp0 fps r IH1 r2 IH2 l' fp' H. inversion H; subst.
    match goal with K : repr h a0 _ _ |- _ => destruct (IH1 _ _ K) as [<- <-] end.
    match goal with K : reprs h ls ?l1 ?f1 |- _ => destruct (IH2 l1 f1 ltac:(assumption)) as [<- <-] end. auto.
Qed.
Lemma reprs_det {A : arith} (h : heap A) : forall ls l fp, reprs h ls l fp -> forall l' fp', reprs h ls l' fp' -> l = l' /\ fp = fp'.
Proof.
  induction 1 as [|a ls t l fp fps R Rs IH]; intros l' fp' H; inversion H; subst; auto.
  match goal with K : repr h a _ _ |- _ => destruct (repr_det h _ _ _ R _ _ K) as [<- <-] end.
  match goal with K : reprs h ls ?l1 ?f1 |- _ => destruct (IH l1 f1 ltac:(assumption)) as [<- <-] end. auto.
Qed.

(** ** Goroutines that make calls on their own expressions *)
Section Calls.
Context {A : arith} {S : Type}.
Variable U : Z -> bool.
Variable range : Symbols.gset -> list string.
Variable parse_float : string -> option (Arith.F A).
Notation calls := (@calls A S).
Notation thread_of := (calls_thread U range parse_float).
Notation alone := (calls_alone U range parse_float).
Notation res := (list loc * list (list (@Ship.event A)))%type.

Definition calls_post (gs : list calls) (i : nat) (x : res) (s : S) (own : list loc) (h : heap A) : Prop :=
  exists g trees fp, nth_error gs i = Some g /\ alone g = LOk ((trees, snd x), s) /\ reprs h (fst x) trees fp /\ NoDup fp /\ incl fp own.
Definition calls_fail (gs : list calls) (i : nat) (e : string) : Prop :=
  exists g, nth_error gs i = Some g /\ alone g = LPanic e.

Lemma calls_safe gs h0 i t : nth_error (map thread_of gs) i = Some t ->
  safe (th_prog t) (th_state t) [] h0 (calls_post gs i) (calls_fail gs i).
Proof.
  rewrite nth_error_map. destruct (nth_error gs i) as [g|] eqn:Eg; [|discriminate]. cbn. intros [= <-]. cbn.
  pose proof (tri_run U range (g_be g) parse_float (g_ops g) [] [] [] (conj (Permutation_refl _) eq_refl) h0 (g_state g) []
    (owns_nil h0) (NoDup_nil _)) as T.
  eapply safe_mono; [exact T| |].
  - cbn beta. intros [ls log] s' own h' ([trees log'] & W & f & E & O & D & I & (P & L) & Q). cbn in P, L, Q. subst log'.
    destruct (owns_perm h' W _ P f O) as (fp & O' & P'). exists g, trees, fp. split; [exact Eg|]. split; [exact E|].
    split; [apply owns_reprs; split; [exact O'|exact L]|]. split; [eapply Permutation_NoDup; eassumption|].
    intros z Hz. apply I. eapply Permutation_in; [apply Permutation_sym, P'|exact Hz].
  - cbn beta. intros e E. exists g. split; [exact Eg|exact E].
Qed.

Lemma calls_inv gs h0 sched : exists own, inv h0 (calls_post gs) (calls_fail gs) (exec sched (start h0 (map thread_of gs))) own.
Proof.
  destruct (inv_exec h0 (calls_post gs) (calls_fail gs) sched (start h0 (map thread_of gs)) (fun _ => [])) as (own & I & _);
    [apply inv_start; intros; apply calls_safe; assumption|]. exists own. exact I.
Qed.

(** The state of goroutine [i] at any time. *)
Lemma calls_at gs h0 sched i g : nth_error gs i = Some g ->
  exists t own, nth_error (c_threads (exec sched (start h0 (map thread_of gs)))) i = Some t /\
    inv h0 (calls_post gs) (calls_fail gs) (exec sched (start h0 (map thread_of gs))) own /\
    safe (th_prog t) (th_state t) (own i) (c_heap (exec sched (start h0 (map thread_of gs)))) (calls_post gs i) (calls_fail gs i).
Proof.
  intros Eg. destruct (calls_inv gs h0 sched) as (own & I).
  destruct (nth_error (c_threads (exec sched (start h0 (map thread_of gs)))) i) as [t|] eqn:Et.
  - exists t, own. split; [reflexivity|]. split; [exact I|]. apply I, Et.
  - apply nth_error_None in Et. rewrite exec_length in Et. cbn in Et. rewrite map_length in Et.
    assert (i < length gs) by (apply nth_error_Some; rewrite Eg; discriminate). lia.
Qed.
End Calls.

(** Whatever the schedule: a goroutine that has ended has done what it would have done
    alone, its expressions are the trees it would have made, made of new nodes. *)
Theorem C95_calls : forall (A : arith) (S : Type) U range parse_float (gs : list (@calls A S)) (h0 : heap A) sched i g,
  nth_error gs i = Some g ->
  let c := exec sched (start h0 (map (calls_thread U range parse_float) gs)) in
  exists t, nth_error (c_threads c) i = Some t /\
  match result t with
  | None => True
  | Some (LOk ((ls, log), s')) => exists trees fp,
      calls_alone U range parse_float g = LOk ((trees, log), s') /\
      reprs (c_heap c) ls trees fp /\ NoDup fp /\ (forall p, In p fp -> length h0 <= p)
  | Some (LPanic e) => calls_alone U range parse_float g = LPanic e
  end.
Proof.
  intros A S U range pf gs h0 sched i g Eg c. destruct (calls_at U range pf gs h0 sched i g Eg) as (t & own & Et & I & Sf).
  fold c in Et, I, Sf. exists t. split; [exact Et|]. destruct t as [p s]. unfold result. cbn [th_prog th_state] in *.
  destruct p as [[ls log]|e| | | | |]; try exact Logic.I; specialize (Sf (c_heap c) (rely_refl _ _)).
  - destruct Sf as (g' & trees & fp & Eg' & E & R & D & In'). assert (g' = g) by congruence. subst g'.
    exists trees, fp. cbn in E, R. split; [exact E|]. split; [exact R|]. split; [exact D|]. intros p Hp.
    destruct I as (_ & _ & B & _). exact (proj1 (B i p (In' p Hp))).
  - destruct Sf as (g' & Eg' & E). congruence.
Qed.

(** The expressions of two goroutines have no node in common. *)
Theorem C95_apart : forall (A : arith) (S : Type) U range parse_float (gs : list (@calls A S)) (h0 : heap A) sched i j ti tj ls ls' log log' s s',
  let c := exec sched (start h0 (map (calls_thread U range parse_float) gs)) in
  i <> j -> nth_error (c_threads c) i = Some ti -> nth_error (c_threads c) j = Some tj ->
  result ti = Some (LOk ((ls, log), s)) -> result tj = Some (LOk ((ls', log'), s')) ->
  forall trees fp trees' fp', reprs (c_heap c) ls trees fp -> reprs (c_heap c) ls' trees' fp' ->
  forall p, In p fp -> ~ In p fp'.
Proof.
  intros A S U range pf gs h0 sched i j ti tj ls ls' log log' s s' c N Ei Ej Ri Rj trees fp trees' fp' Rp Rp' p Hp Hp'.
  destruct (calls_inv U range pf gs h0 sched) as (own & I). fold c in I.
  pose proof I as (_ & Sf & _ & D & _).
  assert (H : forall k t ls log s trees fp, nth_error (c_threads c) k = Some t -> result t = Some (LOk ((ls, log), s)) ->
    reprs (c_heap c) ls trees fp -> incl fp (own k)).
  { intros k [q sq] l lg sk trs f Ek Rk Rf. specialize (Sf k _ Ek). unfold result in Rk. cbn [th_prog th_state] in *.
    destruct q as [x|e| | | | |]; try discriminate Rk. injection Rk as -> _.
    destruct (Sf (c_heap c) (rely_refl _ _)) as (g & trees0 & fp0 & _ & _ & R0 & _ & I0). cbn in R0.
    destruct (reprs_det _ _ _ _ R0 _ _ Rf) as [_ <-]. exact I0. }
  apply N. eapply D; [eapply H; [exact Ei|exact Ri|exact Rp|exact Hp]|eapply H; [exact Ej|exact Rj|exact Rp'|exact Hp']].
Qed.

(** No data race: no node is ever accessed by two goroutines, and none that existed
    before is accessed at all. *)
Theorem C95_no_race : forall (A : arith) (S : Type) U range parse_float (gs : list (@calls A S)) (h0 : heap A) sched,
  let c := exec sched (start h0 (map (calls_thread U range parse_float) gs)) in
  (forall i j x y, In (i, x) (c_trace c) -> In (j, y) (c_trace c) -> node_of x = node_of y -> i = j) /\
  (forall i x, In (i, x) (c_trace c) -> length h0 <= node_of x) /\
  (forall a, a < length h0 -> nth_error (c_heap c) a = nth_error h0 a).
Proof.
  intros A S U range pf gs h0 sched c. destruct (calls_inv U range pf gs h0 sched) as (own & I). fold c in I.
  destruct I as (_ & _ & B & D & Tr & Old). split; [|split; [|exact Old]].
  - intros i j x y Hx Hy E. apply Tr in Hx. apply Tr in Hy. rewrite E in Hx. eapply D; eassumption.
  - intros i x Hx. apply Tr in Hx. apply B in Hx. lia.
Qed.

(** A goroutine that is given turns again and again ends, whatever the others do. *)
Theorem C95_ends : forall (A : arith) (S X : Type) (h0 : heap A) (ts : list (@thread A S X)) sched i,
  i < length ts -> always_again sched i ->
  exists n t, result t <> None /\ forall m, n <= m -> nth_error (c_threads (exec (steps_of sched m) (start h0 ts))) i = Some t.
Proof.
  intros A S X h0 ts sched i L F. destruct (nth_error ts i) as [[p s]|] eqn:Ei; [|apply nth_error_None in Ei; lia].
  destruct (ends sched i p F s 0 (start h0 ts) Ei) as (n & t & _ & En & R). exists n, t. split; [exact R|].
  intros m Lm. replace m with (n + (m - n)) by lia. rewrite steps_of_plus, exec_app. apply exec_ended; assumption.
Qed.

(** ** Render *)
Section Renders.
Context {A : arith} {Fnt : Type}.
Variable U : Z -> bool.
Variable range : Symbols.gset -> list string.
Variable parse_float : string -> option (Arith.F A).
Variable sf : @sfnt A Fnt.
Variable dflt : @fonts Fnt.
Notation h_render := (h_render U range parse_float sf dflt).
Notation alone := (render_alone U range parse_float sf dflt).
Notation thread_of := (render_thread U range parse_float sf dflt).

Lemma safe_render q h0 : safe (h_render q) (new_ttf new_canvas) [] h0
  (fun x _ _ _ => alone q = Some x) (fun e => alone q = Some ([], Panics e)).
Proof.
  unfold ConcSpec.h_render, render_alone, render, mtex_parse, h_mtex_parse, mbind, mret. set (fnts := match q_fonts q with None => dflt | Some f => f end).
  destruct (parse_expr U (q_expr q)) as [l|e|] eqn:Ep.
  2:{ apply safe_panic. reflexivity. }
  2:{ exfalso. destruct (parse_expr_total U (q_expr q)) as (r & Er & Nr). congruence. }
  apply safe_assoc. cbn [pbind].
  pose proof (tri_typeset (ttf_backend sf fnts) range parse_float (q_expr q) l (q_size q) (fofZ A 72) h0 (new_ttf new_canvas) []
    (owns_nil h0) (NoDup_nil _)) as T.
  eapply safe_bind; [eapply safe_mono; [exact T|intros ? ? ? ? K; exact K|]|].
  { cbn beta. intros e ->. reflexivity. }
  cbn beta. intros a s own h (t & W & f & E & O & D & I & ->). rewrite E. cbv beta iota.
  inversion O as [|? ? ? f1 f2 R O']; subst. inversion O'; subst. rewrite app_nil_r in *.
  eapply safe_bind; [eapply safe_mono; [eapply safe_more; [apply (safe_ship f0 f0 h s a t f1 R D)|exact I]|intros ? ? ? ? K; exact K|]|].
  { cbn beta. intros e ->. reflexivity. }
  cbn beta. intros st s1 own1 h1 (new & -> & -> & En & t' & E1 & R1). rewrite E1. cbv beta iota. apply app_nil in En. subst new. cbn [app].
  unfold Heap.call at 1. cbn [pbind]. apply safe_call. unfold to_M.
  destruct (draw_all sf fnts (s_out st) s) as [[u|e] s2]; [|reflexivity].
  eapply safe_look; [exact R1|exact I|]. apply safe_call. apply safe_ret. intros h2 _. destruct t'; reflexivity.
Qed.

Lemma render_inv qs h0 sched : exists own,
  inv h0 (fun i x _ _ _ => exists q, nth_error qs i = Some q /\ alone q = Some x)
      (fun i e => exists q, nth_error qs i = Some q /\ alone q = Some ([], Panics e))
      (exec sched (start h0 (map thread_of qs))) own.
Proof.
  destruct (inv_exec h0 (fun i x _ _ _ => exists q, nth_error qs i = Some q /\ alone q = Some x)
      (fun i e => exists q, nth_error qs i = Some q /\ alone q = Some ([], Panics e)) sched (start h0 (map thread_of qs)) (fun _ => [])) as (own & I & _).
  - apply inv_start. intros i t. rewrite nth_error_map. destruct (nth_error qs i) as [q|] eqn:Eq; [|discriminate]. cbn. intros [= <-]. cbn.
    eapply safe_mono; [apply safe_render| |]; cbn beta; eauto.
  - exists own. exact I.
Qed.
End Renders.

(** Any number of calls of Render at the same time: each does what it would do alone. *)
Theorem C95_render : forall (A : arith) (Fnt : Type) U range parse_float (sf : @sfnt A Fnt) dflt (qs : list request) (h0 : heap A) sched,
  let c := exec sched (start h0 (map (render_thread U range parse_float sf dflt) qs)) in
  (forall i q, nth_error qs i = Some q -> exists t, nth_error (c_threads c) i = Some t /\
   match result t with
   | None => True
   | Some (LOk (r, _)) => render_alone U range parse_float sf dflt q = Some r
   | Some (LPanic e) => render_alone U range parse_float sf dflt q = Some ([], Panics e)
   end) /\
  (forall i j x y, In (i, x) (c_trace c) -> In (j, y) (c_trace c) -> node_of x = node_of y -> i = j) /\
  (forall a, a < length h0 -> nth_error (c_heap c) a = nth_error h0 a).
Proof.
  intros A Fnt U range pf sf dflt qs h0 sched c. destruct (render_inv U range pf sf dflt qs h0 sched) as (own & I). fold c in I.
  destruct I as (_ & Sf & B & D & Tr & Old). split; [|split; [|exact Old]].
  - intros i q Eq. destruct (nth_error (c_threads c) i) as [[p s]|] eqn:Et.
    + exists (mk_thread p s). split; [reflexivity|]. specialize (Sf i _ Et). unfold result. cbn [th_prog th_state] in *.
      destruct p as [r|e| | | | |]; try exact Logic.I; destruct (Sf (c_heap c) (rely_refl _ _)) as (q' & Eq' & E); congruence.
    + apply nth_error_None in Et. unfold c in Et. rewrite exec_length in Et. cbn in Et. rewrite map_length in Et.
      assert (i < length qs) by (apply nth_error_Some; rewrite Eq; discriminate). lia.
  - intros i j x y Hx Hy E. apply Tr in Hx. apply Tr in Hy. rewrite E in Hx. eapply D; eassumption.
Qed.
(** With a fair scheduler every call returns (or panics), with that result. *)
Theorem C95_render_returns : forall (A : arith) (Fnt : Type) U range parse_float (sf : @sfnt A Fnt) dflt (qs : list request) (h0 : heap A) sched i q,
  nth_error qs i = Some q -> always_again sched i ->
  exists n r, render_alone U range parse_float sf dflt q = Some r /\
    forall m, n <= m -> exists t,
      nth_error (c_threads (exec (steps_of sched m) (start h0 (map (render_thread U range parse_float sf dflt) qs)))) i = Some t /\
      match result t with
      | Some (LOk (r', _)) => r' = r
      | Some (LPanic e) => r = ([], Panics e)
      | None => False
      end.
Proof.
  intros A Fnt U range pf sf dflt qs h0 sched i q Eq F.
  destruct (C95_ends A _ _ h0 (map (render_thread U range pf sf dflt) qs) sched i) as (n & t & R & H);
    [rewrite map_length; apply nth_error_Some; rewrite Eq; discriminate|exact F|].
  destruct (C95_render A Fnt U range pf sf dflt qs h0 (steps_of sched n)) as (C & _).
  destruct (C i q Eq) as (t' & Et & K). rewrite (H n (Nat.le_refl n)) in Et. injection Et as <-.
  exists n. destruct (result t) as [[[r s]|e]|] eqn:Er; [| |congruence].
  - exists r. split; [exact K|]. intros m Lm. exists t. rewrite Er. split; [apply H, Lm|reflexivity].
  - exists ([], Panics e). split; [exact K|]. intros m Lm. exists t. rewrite Er. split; [apply H, Lm|reflexivity].
Qed.

(** ** Cases *)
(** Two goroutines in turns: one parses and shrinks a fraction, the other parses and draws
    two letters.  Both end; their nodes are interleaved in memory. *)
Definition c95_goroutines : list (@calls float64 unit) :=
  [mk_calls c27_be [OParse "$\frac{1}{2}$" 10%float 72%float; OShrink 0; OShip 0 0%float 0%float] tt;
   mk_calls c27_be [OParse "ab" 10%float 72%float; OShip 0 0%float 0%float] tt].
Definition c95_turns (n : nat) : list nat := flat_map (fun _ => [0; 1]) (seq 0 n).
Definition c95_end : list (option (list loc * list nat)) * nat :=
  let c := exec (c95_turns 400) (start [] (map (calls_thread ascii_only id_range one_float) c95_goroutines)) in
  (map (fun t => match result t with Some (LOk ((ls, log), _)) => Some (ls, map (@length _) log) | _ => None end) (c_threads c),
   length (c_heap c)).
Example C95_case : c95_end = ([Some ([20], [0; 0; 3]); Some ([7], [0; 2])], 21).
Proof. vm_compute. reflexivity. Qed.
(** A schedule that is fair to both. *)
Example C95_fair : forall i, i < 2 -> always_again (fun n => n mod 2) i.
Proof.
  intros i L n. exists (2 * n + i). split; [lia|]. rewrite Nat.add_comm, Nat.mul_comm, Nat.mod_add by lia.
  apply Nat.mod_small, L.
Qed.
(** Not so for a shared node: two goroutines that shrink one kern of width 10 touch the
    same node and may leave it 7 wide instead of 4.9. *)
Definition c95_shared (sched : list nat) : option float * list (nat * access) :=
  let c := exec sched (start [CLeaf (TKern (A := float64) 0 10%float)] [mk_thread (h_shrink c27_be 0) tt; mk_thread (h_shrink c27_be 0) tt]) in
  (match c_heap c with [CLeaf (TKern _ w)] => Some w | _ => None end, c_trace c).
Example C95_shared_race :
  c95_shared [0; 0; 0; 0; 1; 1; 1; 1] = (Some 0x1.3999999999999p+2%float, [(0, Reads 0); (0, Writes 0); (1, Reads 0); (1, Writes 0)]) /\
  c95_shared [0; 1; 0; 1; 0; 1; 0; 1] = (Some 7%float, [(0, Reads 0); (1, Reads 0); (0, Writes 0); (1, Writes 0)]).
Proof. vm_compute. split; reflexivity. Qed.
(** Three calls of Render in turns, the second of which panics. *)
Definition c95_requests : list (@request exact unit) :=
  [mk_request (fun _ => DstNil) "$x+\frac{a}{2}$" (Fin (Q2Qc 10)) dpi72 None;
   mk_request (fun _ => DstNil) "$x^2$" (Fin (Q2Qc 10)) dpi72 None;
   mk_request (fun _ => DstErr "disk full") "$y$" (Fin (Q2Qc 10)) dpi72 None].
Definition c95_rendered : list (option (lres (option (list (list string) * outcome)))) :=
  let c := exec (flat_map (fun _ => [2; 0; 1]) (seq 0 300)) (start []
    (map (render_thread ascii_only id_range (fun _ => None) (toy exact) toy_fonts) c95_requests)) in
  map (fun t => match result t with
                | Some (LOk (r, _)) => Some (LOk (seen (Some r))) | Some (LPanic e) => Some (LPanic e) | None => None end) (c_threads c).
Example C95_render_case : c95_rendered =
  [Some (LOk (Some ([["x"; "+"; "a"; "-rule-"; "2"]], RetNil))); Some (LPanic "unknown ast node");
   Some (LOk (Some ([["y"]], RetErr "could not render math expression: disk full")))].
Proof. vm_compute. reflexivity. Qed.
