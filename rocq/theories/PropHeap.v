(** C94: nodes are pointers. *)
From Coq Require Import ZArith String Ascii List Bool Lia Permutation Floats.
From Verif Require Import Utf8 Token Ast Parser Symbols Arith Box Ship Mtex Heap HeapSpec HeapFacts HeapSim HeapSim2 HeapShip.
From Verif Require Import MtexFacts PropPack PropMtex.
Import ListNotations.
Local Open Scope string_scope.
Local Open Scope list_scope.
Local Open Scope nat_scope.

Lemma run_bind {A : arith} {S X Y : Type} (p : prog A S X) : forall (k : X -> prog A S Y) (h : heap A) (s : S),
  run (pbind p k) h s = match run p h s with LOk (x, (h', s')) => run (k x) h' s' | LPanic e => LPanic e end.
Proof.
  induction p as [x|e|a k0 IH|a c k0 IH|c k0 IH|k0 IH|V m k0 IH]; intros k h s; cbn [pbind run]; try reflexivity; try apply IH.
  - destruct (nth_error h a) as [c|]; [apply IH|reflexivity].
  - destruct (m s) as [[y s']|e]; [apply IH|reflexivity].
Qed.

(** ** Parse *)
Theorem C94_parse : forall (A : arith) (S : Type) U range (be : @backend A S) parse_float x size dpi (h : heap A) (s : S),
  match mtex_parse U range be parse_float x size dpi s with
  | Some (LOk ((t, err), s')) => exists a h' fp,
      run (h_mtex_parse U range be parse_float x size dpi) h s = LOk ((a, err), (h', s')) /\
      tree_at h' a t fp /\ (forall p, In p fp -> length h <= p < length h') /\ only_adds h h'
  | Some (LPanic e) => run (h_mtex_parse U range be parse_float x size dpi) h s = LPanic e
  | None => run (h_mtex_parse U range be parse_float x size dpi) h s = LPanic "no result"
  end.
Proof.
  intros. unfold mtex_parse, h_mtex_parse. destruct (parse_expr U x) as [l|e|]; try reflexivity.
  pose proof (safe_run _ _ _ _ _ _ (tri_typeset be range parse_float x l size dpi h s [] (owns_nil h) (NoDup_nil _))) as T.
  rewrite run_bind. destruct (run (h_typeset be range parse_float x l size dpi) h s) as [[a [h' s']]|e];
    [|unfold mbind; rewrite T; reflexivity].
  destruct T as (fp' & (t & W & f & E & O & D & I & ->) & (L & In' & C) & _). unfold mbind. rewrite E.
  inversion O as [|? ? ? f1 f2 R O']; subst. inversion O'; subst. rewrite app_nil_r in *.
  exists a, h', f1. split; [reflexivity|]. split; [split; assumption|]. split.
  - intros p Hp. split; [|eapply repr_bound; eassumption]. destruct (In' p (I p Hp)) as [[]|H]; exact H.
  - intros p c Ep. rewrite C; [exact Ep|eapply nth_lt, Ep|intros []].
Qed.

(** ** Shrink, Grow and Ship, in place *)
Lemma kept {A : arith} fp (h h' : heap A) : step fp h fp h' -> length h' + length fp = length h + length fp -> only_changes fp h h'.
Proof.
  intros (L & _ & C) E. split; [lia|]. intros a Na. destruct (Nat.lt_ge_cases a (length h)) as [H|H]; [apply C; assumption|].
  rewrite (proj2 (nth_error_None h a) H). apply nth_error_None. lia.
Qed.
Lemma run_scale {A : arith} {S : Type} (m : @Box.tnode A -> M S (@Box.tnode A)) hm (h : heap A) (s : S) a t fp : (forall t, scales m hm t) -> tree_at h a t fp ->
  match m t s with
  | LOk (t', s') => exists h', run (PSize (fun n => hm n a)) h s = LOk (tt, (h', s')) /\ tree_at h' a t' fp /\ only_changes fp h h'
  | LPanic e => run (PSize (fun n => hm n a)) h s = LPanic e
  end.
Proof.
  intros Sc [R D]. pose proof (safe_run _ _ _ _ _ _ (Sc t h s a fp (length h) R D (nodes_le_heap h a t fp R D))) as H.
  cbn [run]. destruct (run (hm (length h) a) h s) as [[[] [h' s']]|e]; [|rewrite H; reflexivity].
  destruct H as (fp' & (-> & t' & E & R') & St & L). rewrite E. exists h'. split; [reflexivity|]. split; [split; assumption|].
  apply kept; assumption.
Qed.
Theorem C94_shrink : forall (A : arith) (S : Type) (be : @backend A S) (h : heap A) (s : S) a t fp,
  tree_at h a t fp ->
  match shrink be t s with
  | LOk (t', s') => exists h', run (h_shrink be a) h s = LOk (tt, (h', s')) /\ tree_at h' a t' fp /\ only_changes fp h h'
  | LPanic e => run (h_shrink be a) h s = LPanic e
  end.
Proof. intros. apply (run_scale (shrink be) (h_shrink_n be)); [apply shrinks|assumption]. Qed.
Theorem C94_grow : forall (A : arith) (S : Type) (be : @backend A S) (h : heap A) (s : S) a t fp,
  tree_at h a t fp ->
  match grow be t s with
  | LOk (t', s') => exists h', run (h_grow be a) h s = LOk (tt, (h', s')) /\ tree_at h' a t' fp /\ only_changes fp h h'
  | LPanic e => run (h_grow be a) h s = LPanic e
  end.
Proof. intros. apply (run_scale (grow be) (h_grow_n be)); [apply grows|assumption]. Qed.
Lemma run_sets {A : arith} {S : Type} (p : prog A S unit) a t r (h : heap A) (s : S) fp : sets p a t r -> tree_at h a t fp ->
  match r with
  | LOk t' => exists h', run p h s = LOk (tt, (h', s)) /\ tree_at h' a t' fp /\ only_changes [a] h h'
  | LPanic e => run p h s = LPanic e
  end.
Proof.
  intros P [R D]. pose proof (safe_run _ _ _ _ _ _ (P h s fp fp R D (incl_refl fp))) as H.
  destruct (run p h s) as [[[] [h' s']]|e]; [|rewrite H; reflexivity].
  destruct H as (fp' & (-> & -> & (t' & -> & R') & K) & St & L). exists h'. split; [reflexivity|]. split; [split; assumption|].
  destruct (kept fp h h' St L) as [Lh C]. split; [exact Lh|]. intros x Nx.
  destruct (in_dec Nat.eq_dec x fp) as [I|I]; [apply K; [exact I|intros ->; apply Nx; left; reflexivity]|apply C, I].
Qed.
Theorem C94_pack : forall (A : arith) (S : Type) (h : heap A) (s : S) a t fp,
  tree_at h a t fp ->
  (forall w add, exists h', run (h_hpack w add a) h s = LOk (tt, (h', s)) /\
     tree_at h' a (hpack w add t) fp /\ only_changes [a] h h') /\
  (forall w add lim, match vpack w add lim t with
   | LOk t' => exists h', run (h_vpack w add lim a) h s = LOk (tt, (h', s)) /\ tree_at h' a t' fp /\ only_changes [a] h h'
   | LPanic e => run (h_vpack w add lim a) h s = LPanic e
   end).
Proof.
  intros A S h s a t fp T. split.
  - intros w add. exact (run_sets _ a t _ h s fp (sets_hpack w add a t) T).
  - intros w add lim. exact (run_sets _ a t _ h s fp (sets_vpack w add lim a t) T).
Qed.
(** Drawing leaves the backend's state alone (the marks are collected; Render draws them). *)
Lemma safe_ship {A : arith} {S : Type} ox oy (h : heap A) (s : S) a t f : repr h a t f -> NoDup f ->
  safe (h_ship_call ox oy a) s f h
    (fun st s' fp' h' => s' = s /\ fp' = f /\ exists t', ship_call ox oy t = LOk (t', st) /\ repr h' a t' f)
    (fun e => ship_call ox oy t = LPanic e).
Proof.
  intros R D. unfold h_ship_call, ship_call. eapply safe_look; [exact R|apply incl_refl|]. rewrite height_fl.
  apply safe_size. intros n L.
  assert (R' : repr h a (set_box (t_box t) t) f) by (destruct t; exact R).
  assert (Ln : length f <= n) by (pose proof (nodes_le_heap h a t f R D); lia).
  eapply safe_bind.
  - eapply safe_mono; [eapply safe_local, (ships_all ox (fadd A oy (t_height t)) t false (t_box t) h (mk_ship 0 0 f0 f0 []) a f n R' D Ln)| |].
    + intros ? ? ? ? q. exact q.
    + cbn beta. auto.
  - cbn beta. intros r s' fp' h' (-> & -> & t' & E & R2). apply safe_ret. intros h2 R3.
    split; [reflexivity|]. split; [reflexivity|]. exists t'. split; [exact E|]. eapply repr_rely; [exact R2|apply incl_refl|exact R3].
Qed.
Theorem C94_ship : forall (A : arith) (S : Type) ox oy (h : heap A) (s : S) a t fp,
  tree_at h a t fp ->
  match ship_call ox oy t with
  | LOk (t', st) => exists h', run (h_ship_call ox oy a) h s = LOk (st, (h', s)) /\ tree_at h' a t' fp /\ only_changes fp h h'
  | LPanic e => run (h_ship_call ox oy a) h s = LPanic e
  end.
Proof.
  intros A S ox oy h s a t fp [R D]. pose proof (safe_run _ _ _ _ _ _ (safe_ship ox oy h s a t fp R D)) as H.
  destruct (run (h_ship_call ox oy a) h s) as [[st [h' s']]|e]; [|rewrite H; reflexivity].
  destruct H as (fp' & (-> & -> & t' & E & R') & St & L). rewrite E. exists h'. split; [reflexivity|]. split; [split; assumption|].
  apply kept; assumption.
Qed.

(** ** Histories *)
Section History.
Context {A : arith} {S : Type}.
Variable U : Z -> bool.
Variable range : Symbols.gset -> list string.
Variable be : @backend A S.
Variable parse_float : string -> option (Arith.F A).

Definition pool_ok (r : list (@Box.tnode A)) (ls : list loc) (W : @world A) : Prop :=
  Permutation W (combine ls r) /\ length ls = length r.

Lemma combine_nth (ls : list loc) : forall (l : list (@Box.tnode A)) i t, length ls = length l -> nth_error l i = Some t ->
  exists a X, nth_error ls i = Some a /\ Permutation (combine ls l) ((a, t) :: X) /\
    forall t', Permutation (combine ls (set_nth i t' l)) ((a, t') :: X).
Proof.
  induction ls as [|a ls IH]; intros [|u l] [|i] t L E; try discriminate L; try discriminate E.
  - injection E as ->. exists a, (combine ls l). repeat split; auto.
  - injection L as L. destruct (IH l i t L E) as (b & X & E1 & P1 & P2). exists b, ((a, u) :: X).
    split; [exact E1|]. split.
    + cbn. eapply Permutation_trans; [apply perm_skip, P1|apply perm_swap].
    + intro t'. cbn. eapply Permutation_trans; [apply perm_skip, P2|apply perm_swap].
Qed.
Lemma set_nth_length {X} (x : X) : forall l i, length (set_nth i x l) = length l.
Proof. induction l as [|y l IH]; intros [|i]; cbn; auto. Qed.

Lemma tri_on i (l : list (@Box.tnode A)) ls (f : @Box.tnode A -> M S (@Box.tnode A * list event)) hf W :
  pool_ok l ls W ->
  (forall a t, tri [(a, t)] (f t) (hf a) (fun r hr W => W = [(a, fst r)] /\ snd r = hr)) ->
  tri W (on_tree i l f) (on_loc i ls hf) (fun r hr W' => pool_ok (fst r) (fst hr) W' /\ snd r = snd hr).
Proof.
  intros (P & L) T. unfold on_tree, on_loc. destruct (nth_error l i) as [t|] eqn:E.
  - destruct (combine_nth ls l i t L E) as (a & X & E1 & P1 & P2). rewrite E1.
    eapply (tri_use [(a, t)] X); [eapply Permutation_trans; [exact P|exact P1]|apply T|].
    intros r hr W' (-> & <-). apply tri_ret. cbn. split; [|reflexivity]. split.
    + apply Permutation_sym, P2.
    + rewrite set_nth_length. exact L.
  - assert (E1 : nth_error ls i = None) by (apply nth_error_None; apply nth_error_None in E; lia).
    rewrite E1. apply tri_ret. split; [split; assumption|reflexivity].
Qed.

Lemma tri_ship a (t : @Box.tnode A) ox oy :
  tri [(a, t)] (r <- mlift (ship_call ox oy t) ;; mret (S := S) (fst r, s_out (snd r)))
    (st <~ h_ship_call ox oy a ;; PRet (s_out st))
    (fun r hr W => W = [(a, fst r)] /\ snd r = hr).
Proof.
  intros h s fp O D. inversion O as [|? ? ? f f' R O']; subst. inversion O'; subst. rewrite app_nil_r in *.
  unfold mbind, mlift, mret. eapply safe_bind.
  - eapply safe_mono; [exact (safe_ship ox oy h s a t f R D)|intros ? ? ? ? q; exact q|].
    cbn beta. intros e ->. reflexivity.
  - cbn beta. intros st s' fp' h' (-> & -> & t' & E & R'). apply safe_ret. intros h2 Rl. rewrite E.
    exists (t', s_out st), [(a, t')], (f ++ []). split; [reflexivity|].
    split; [constructor; [eapply repr_rely; [exact R'|apply incl_refl|exact Rl]|constructor]|].
    rewrite app_nil_r. split; [exact D|]. split; [apply incl_refl|split; reflexivity].
Qed.

Lemma tri_op o l ls W : pool_ok l ls W ->
  tri W (t_op U range be parse_float o l) (h_op U range be parse_float o ls)
    (fun r hr W' => pool_ok (fst r) (fst hr) W' /\ snd r = snd hr).
Proof.
  intro P. destruct o as [x size dpi|i|i|i w add|i w add lim|i ox oy]; cbn [t_op h_op].
  - unfold mtex_parse, h_mtex_parse. destruct (parse_expr U x) as [n|e|]; try (intros h s fp O D; apply safe_panic; reflexivity).
    apply tri_ext with (m' := t <- typeset range be parse_float x n size dpi ;; mret (l ++ [t], [])).
    + intro s. unfold mbind, mret. destruct (typeset range be parse_float x n size dpi s) as [[t s']|e]; reflexivity.
    + destruct P as (P & L). intros h s fp O D. apply safe_assoc. revert h s fp O D. cbn [pbind].
      eapply (tri_use [] W); [reflexivity|apply tri_typeset|]. intros t a W' ->. apply tri_ret.
      cbn. split; [|reflexivity]. split; [|rewrite !app_length; cbn; congruence].
      rewrite combine_app by exact L. cbn. eapply Permutation_trans; [apply perm_skip, P|].
      apply (Permutation_app_comm [(a, t)]).
  - apply tri_on; [exact P|]. intros a t. eapply tri_bind; [apply tri_shrink|]. intros t' [] W' ->. apply tri_ret. split; reflexivity.
  - apply tri_on; [exact P|]. intros a t. eapply tri_bind; [apply tri_grow|]. intros t' [] W' ->. apply tri_ret. split; reflexivity.
  - apply tri_on; [exact P|]. intros a t. eapply (tri_do a t); [reflexivity|apply sets_hpack|]. apply tri_ret. split; reflexivity.
  - apply tri_on; [exact P|]. intros a t. eapply tri_bind; [apply tri_sets, sets_vpack|]. intros t' [] W' ->. apply tri_ret. split; reflexivity.
  - apply tri_on; [exact P|]. intros a t. apply tri_ship.
Qed.

Lemma tri_run : forall ops l ls W, pool_ok l ls W ->
  tri W (t_run U range be parse_float ops l) (h_run U range be parse_float ops ls)
    (fun r hr W' => pool_ok (fst r) (fst hr) W' /\ snd r = snd hr).
Proof.
  induction ops as [|o ops IH]; intros l ls W P; cbn [t_run h_run].
  - apply tri_ret. split; [exact P|reflexivity].
  - eapply tri_bind; [apply tri_op, P|]. intros r hr W' (P' & E).
    eapply tri_bind; [apply IH, P'|]. intros r' hr' W'' (P'' & E'). apply tri_ret. cbn. rewrite E, E'.
    split; [exact P''|reflexivity].
Qed.
End History.

Theorem C94_history : forall (A : arith) (S : Type) U range (be : @backend A S) parse_float ops (s : S),
  match t_run U range be parse_float ops [] s with
  | LOk ((trees, log), s') => exists ls h fp,
      run (h_run U range be parse_float ops []) [] s = LOk ((ls, log), (h, s')) /\
      reprs h ls trees fp /\ NoDup fp
  | LPanic e => run (h_run U range be parse_float ops []) [] s = LPanic e
  end.
Proof.
  intros. pose proof (safe_run _ _ _ _ _ _ (tri_run U range be parse_float ops [] [] [] (conj (Permutation_refl _) eq_refl) [] s [] (owns_nil []) (NoDup_nil _))) as T.
  destruct (run (h_run U range be parse_float ops []) [] s) as [[[ls log] [h s']]|e]; [|rewrite T; reflexivity].
  destruct T as (fpx & ([trees log'] & W & fp & E & O & D & _ & (P & L) & Q) & _). cbn in P, L, Q. subst log'. rewrite E.
  destruct (owns_perm h W _ P fp O) as (fp' & O' & P'). exists ls, h, fp'. split; [reflexivity|]. split.
  - apply owns_reprs. split; [exact O'|exact L].
  - eapply Permutation_NoDup; eassumption.
Qed.

(** ** A node that occurs twice is shrunk twice *)
Lemma iter_succ {X} (f : X -> X) n : forall x, Nat.iter (Datatypes.S n) f x = Nat.iter n f (f x).
Proof. induction n as [|n IH]; intro x; [reflexivity|]. cbn. cbn in IH. rewrite IH. reflexivity. Qed.
Lemma shrink_kerns (A : arith) (S : Type) (be : @backend A S) : forall ls (h : heap A) (s : S) n,
  (forall p, In p ls -> exists z w, nth_error h p = Some (CLeaf (TKern z w))) ->
  exists h', run (miter (h_shrink_n be (Datatypes.S n)) ls) h s = LOk (tt, (h', s)) /\ only_changes ls h h' /\
    forall p z w, nth_error h p = Some (CLeaf (TKern z w)) ->
      nth_error h' p = Some (let zw := Nat.iter (count_occ Nat.eq_dec ls p) kern_shrink (z, w) in CLeaf (TKern (fst zw) (snd zw))).
Proof.
  induction ls as [|a ls IH]; intros h s n K.
  - exists h. split; [reflexivity|]. split; [apply changes_refl|]. intros p z w E. exact E.
  - destruct (K a (or_introl eq_refl)) as (z0 & w0 & Ea).
    set (c' := CLeaf (TKern (fst (kern_shrink (z0, w0))) (snd (kern_shrink (z0, w0))))).
    assert (Ha : nth_error (update a c' h) a = Some c') by (apply update_same; eapply nth_lt, Ea).
    destruct (IH (update a c' h) s n) as (h' & E & C & Kn).
    { intros p Hp. destruct (Nat.eq_dec p a) as [->|N]; [rewrite Ha; do 2 eexists; reflexivity|].
      rewrite update_other by exact N. apply K. right. exact Hp. }
    exists h'. split; [|split].
    + change (miter (h_shrink_n be (Datatypes.S n)) (a :: ls))
        with (_ <~ h_shrink_n be (Datatypes.S n) a ;; miter (h_shrink_n be (Datatypes.S n)) ls).
      rewrite run_bind. cbn [h_shrink_n read call pbind run]. rewrite Ea. exact E.
    + eapply changes_trans; [eapply changes_incl; [apply changes_update|]|eapply changes_incl; [exact C|apply incl_tl, incl_refl]].
      intros x [<-|[]]. left. reflexivity.
    + intros p z w Ep. cbn [count_occ]. destruct (Nat.eq_dec a p) as [<-|N].
      * rewrite Ea in Ep. injection Ep as <- <-. rewrite (Kn a _ _ Ha). rewrite iter_succ.
        rewrite <- surjective_pairing. reflexivity.
      * apply Kn. rewrite update_other by congruence. exact Ep.
Qed.

Theorem C94_shared : forall (A : arith) (S : Type) (be : @backend A S) (h : heap A) (s : S) a k b sh g ls,
  nth_error h a = Some (CList k b sh g ls) ->
  (forall p, In p ls -> exists z w, nth_error h p = Some (CLeaf (TKern z w))) ->
  exists h', run (h_shrink be a) h s = LOk (tt, (h', s)) /\
    forall p z w, nth_error h p = Some (CLeaf (TKern z w)) ->
      let zw := Nat.iter (count_occ Nat.eq_dec ls p) kern_shrink (z, w) in
      nth_error h' p = Some (CLeaf (TKern (fst zw) (snd zw))).
Proof.
  intros A S be h s a k b sh g ls Ea K. unfold h_shrink. cbn [run].
  assert (La : a < length h) by (eapply nth_lt, Ea).
  destruct (length h) as [|n] eqn:Ln; [lia|].
  assert (H : exists h', run (miter (h_shrink_n be n) ls) h s = LOk (tt, (h', s)) /\ only_changes ls h h' /\
    forall p z w, nth_error h p = Some (CLeaf (TKern z w)) ->
      nth_error h' p = Some (let zw := Nat.iter (count_occ Nat.eq_dec ls p) kern_shrink (z, w) in CLeaf (TKern (fst zw) (snd zw)))).
  { destruct ls as [|p ls].
    - exists h. split; [reflexivity|]. split; [apply changes_refl|]. intros p z w E. exact E.
    - destruct n as [|n]; [|apply shrink_kerns, K].
      destruct (K p (or_introl eq_refl)) as (z & w & Ep). pose proof (nth_lt _ _ _ Ep).
      assert (p = a) by lia. subst p. congruence. }
  destruct H as (h1 & E1 & (L1 & C1) & K1).
  assert (Ea1 : nth_error h1 a = Some (CList k b sh g ls)).
  { rewrite C1; [exact Ea|]. intro I. destruct (K a I) as (z & w & E). congruence. }
  cbn [h_shrink_n read pbind run]. rewrite Ea, run_bind, E1. cbn [read pbind run]. rewrite Ea1.
  destruct (b_size (box_shrink b) <? num_size_levels)%Z; (eexists; split; [reflexivity|]);
    intros p z w Ep; cbn [fst snd]; rewrite update_other by (intros ->; congruence); apply K1, Ep.
Qed.

(** ** Cases *)
(** Parsing a fraction into an empty heap makes the nodes of the tree, all different. *)
Definition c94_heap (x : string) : option (nat * nat) :=
  match run (h_mtex_parse ascii_only id_range c27_be one_float x 10%float 72%float) [] tt with
  | LOk ((a, _), (h, _)) => Some (a, length h)
  | _ => None
  end.
Example C94_case : c94_heap "$\frac{1}{2}$" = Some (16, 17).
Proof. vm_compute. reflexivity. Qed.

(** A kern of width 10 that occurs twice is 4.9 (10 * 0.7 * 0.7) wide after Shrink, not 7. *)
Definition c94_width : option float :=
  match run (h_shrink c27_be 1) [CLeaf (TKern (A := float64) 0 10%float); CList KHList (new_box 20 0 0)%float 0%float gset0 [0; 0]] tt with
  | LOk (_, (h, _)) => match nth_error h 0 with Some (CLeaf (TKern _ w)) => Some w | _ => None end
  | LPanic _ => None
  end.
Example C94_shared_case : c94_width = Some 0x1.3999999999999p+2%float.
Proof. vm_compute. reflexivity. Qed.
(** So a history on one shared tree is not what the tree functions say. *)
Example C94_sharing_matters :
  shrink c27_be (list_of KHList [TKern (A := float64) 0 10%float; TKern 0 10%float]) tt =
    LOk (TL KHList (mk_box (-1) 0 0 0)%float 0%float (mk_gset 0%float 0 0 0%float) [TKern (-1) 7%float; TKern (-1) 7%float], tt).
Proof. reflexivity. Qed.

(** A history: two expressions, the first is shrunk, both are drawn. *)
Definition c94_log : option (list nat * nat) :=
  match run (h_run ascii_only id_range c27_be one_float
          [OParse "$\frac{1}{2}$" 10%float 72%float; OParse "ab" 10%float 72%float; OShrink 0;
           OShip 1 0%float 0%float; OShip 0 0%float 0%float; OShip 0 0%float 0%float] []) [] tt with
  | LOk ((ls, log), (h, _)) => Some (map (@length _) log, length h)
  | LPanic _ => None
  end.
Example C94_history_case : c94_log = Some ([0; 0; 0; 2; 3; 3], 21).
Proof. vm_compute. reflexivity. Qed.
