(** Ship through pointers draws what it draws on trees. *)
From Coq Require Import ZArith String Ascii List Bool Lia Permutation.
From Verif Require Import Arith Box Ship Heap HeapSpec HeapFacts HeapSim.
Import ListNotations.
Local Open Scope list_scope.
Local Open Scope nat_scope.

Section HeapShip.
Context {A : arith}.
Notation F := (Arith.F A).
Notation tnode := (@Box.tnode A).
Notation heap := (heap A).
Notation ship := (@Ship.ship A).
Notation HM := (prog A ship).
Variables ox oy : F.
Notation out := (ship_out ox oy).
Notation h_out := (h_ship_n ox oy).

Definition set_box (bx : @box A) (t : tnode) : tnode :=
  match t with TL k _ sh g l => TL k bx sh g l | _ => t end.

Definition ships (t : tnode) : Prop := forall vert bx (h : heap) st a f n,
  repr h a (set_box bx t) f -> NoDup f -> length f <= n ->
  safe (h_out n vert a) st f h
    (fun _ st' fp' h' => fp' = f /\ exists t', out vert bx t st = LOk (t', st') /\ repr h' a t' f)
    (fun e => out vert bx t st = LPanic e).

Lemma glue_ratio gs (g : @glue A) G T :
  glue_step (mk_gset (gs_set gs) (gs_sign gs) (gs_order gs) f0) g G T = glue_step gs g G T.
Proof. reflexivity. Qed.

Lemma ship_root vert bx k b sh g l st t' st' :
  out vert bx (TL k b sh g l) st = LOk (t', st') -> exists l', t' = TL k bx sh g l'.
Proof.
  cbn. destruct vert; (destruct (kids _ _ _ _ _) as [[l' st0]|e]; [|discriminate]);
  intro E; inversion E; eauto.
Qed.

(** The step on trees ends with [r]; [p] ends alike, having changed no object in [fr]. *)
Definition steps (p : HM (Z * F)) (st : ship) (fp : list loc) (h : heap) (r : lres (tnode * Z * F * ship)) (q : loc) (f fr : list loc) (h0 : heap) : Prop :=
  safe p st fp h
    (fun y st' fp' h' => fp' = fp /\ agree fr h0 h' /\ exists x', r = LOk (x', fst y, snd y, st') /\ repr h' q x' f)
    (fun e => r = LPanic e).
Arguments steps : simpl never.
Lemma steps_ret G T st fp (h : heap) x' q f fr h0 :
  repr h q x' f -> incl f fp -> incl fr fp -> agree fr h0 h -> steps (PRet (G, T)) st fp h (LOk (x', G, T, st)) q f fr h0.
Proof.
  intros R I Ir Ag. apply safe_ret. intros h' Rl. split; [reflexivity|]. split.
  - intros x Hx. rewrite <- (Ag x Hx). apply Rl, Ir, Hx.
  - exists x'. split; [reflexivity|eapply repr_rely; eassumption].
Qed.
Lemma steps_panic e st fp (h : heap) q f fr h0 : steps (PPanic e) st fp h (LPanic e) q f fr h0.
Proof. apply safe_panic. reflexivity. Qed.
Lemma steps_modify g (k : unit -> HM (Z * F)) st fp (h : heap) r q f fr h0 :
  steps (k tt) (g st) fp h r q f fr h0 -> steps (pbind (modify g) k) st fp h r q f fr h0.
Proof. intro H. apply safe_call. exact H. Qed.
Lemma steps_call {Y} (m : M ship Y) (k : Y -> HM (Z * F)) y st st' fp (h : heap) r q f fr h0 :
  m st = LOk (y, st') -> steps (k y) st' fp h r q f fr h0 -> steps (PCall m k) st fp h r q f fr h0.
Proof. intros E H. apply safe_call. rewrite E. exact H. Qed.
Lemma steps_cur (k : ship -> HM (Z * F)) st fp (h : heap) r q f fr h0 :
  steps (k st) st fp h r q f fr h0 -> steps (pbind cur k) st fp h r q f fr h0.
Proof. intro H. apply safe_call. exact H. Qed.
Lemma steps_read a c (k : cell A -> HM (Z * F)) st fp (h : heap) r q f fr h0 :
  In a fp -> nth_error h a = Some c -> steps (k c) st fp h r q f fr h0 -> steps (pbind (read a) k) st fp h r q f fr h0.
Proof. intros I E H. eapply safe_read; [exact I|exact E|exact H]. Qed.
Lemma steps_look a c (k : tnode -> HM (Z * F)) st fp (h : heap) r q f fr h0 :
  In a fp -> nth_error h a = Some c -> steps (k (flat c)) st fp h r q f fr h0 -> steps (pbind (look a) k) st fp h r q f fr h0.
Proof. intros I E H. eapply safe_read; [exact I|exact E|exact H]. Qed.
Lemma steps_assoc {U V} (p : HM U) (f1 : U -> HM V) (g1 : V -> HM (Z * F)) st fp (h : heap) r q f fr h0 :
  steps (pbind p (fun x => pbind (f1 x) g1)) st fp h r q f fr h0 -> steps (pbind (pbind p f1) g1) st fp h r q f fr h0.
Proof. intro H. apply safe_assoc. exact H. Qed.
Lemma steps_rec (k : unit -> HM (Z * F)) st fp (h : heap) r q f fr h0 vert bx x n :
  ships x -> repr h q (set_box bx x) f -> NoDup f -> length f <= n -> incl f fp -> incl fr fp -> disjoint f fr -> bounded fr h -> agree fr h0 h ->
  (forall x' st' (h' : heap), out vert bx x st = LOk (x', st') -> repr h' q x' f -> agree fr h0 h' -> steps (k tt) st' fp h' r q f fr h0) ->
  (forall e, out vert bx x st = LPanic e -> r = LPanic e) ->
  steps (pbind (h_out n vert q) k) st fp h r q f fr h0.
Proof.
  intros Sx R D L I Ir Dj B Ag K KE. eapply safe_bind.
  - eapply safe_mono; [eapply (safe_frame _ st f fp fr h h0); [apply (Sx vert bx h st q f n R D L)|assumption..]| |].
    + intros ? ? ? ? H. exact H.
    + exact KE.
  - cbn beta. intros [] st' g h' (new & -> & _ & Ag' & En & x' & E & R'). apply app_nil in En. subst new.
    apply (K x' st' h' E R' Ag').
Qed.

Ltac call_step := eapply steps_call; [reflexivity|]; cbn beta.
Lemma ship_hstep (h : heap) a k bx sh gs ls base x p f fp fr n :
  nth_error h a = Some (CList k bx sh gs ls) -> repr h p x f -> NoDup f -> In a fr -> length f <= n ->
  incl f fp -> incl fr fp -> disjoint f fr -> bounded fr h ->
  ships x -> forall G T st,
  steps (h_hstep ox oy (h_out n) a (gs_sign gs) (gs_order gs) base p G T) st fp h
    (hstep out ox oy bx gs base x G T st) p f fr h.
Proof.
  intros Ea R D Ia L If Ir Dj B IH G T st.
  assert (Ag : agree fr h h) by (intros z _; reflexivity).
  assert (Ra : In a fp) by (apply Ir, Ia).
  assert (Rp : In p fp) by (apply If; eapply repr_in, R).
  unfold h_hstep. inversion R as [? ? E Lf|? kx b s g xs l fx E Rs]; subst.
  - eapply steps_read; [exact Rp|exact E|].
    destruct x as [b|c|c|b|g|z w|kx b s g l]; try destruct Lf; cbn -[glue_step pbind modify look cur].
    + eapply steps_look; [exact Rp|exact E|]. eapply steps_look; [exact Ra|exact Ea|]. cbn.
      destruct (_ && _); cbn; [apply steps_panic|]. call_step. apply steps_ret; assumption.
    + apply steps_modify, steps_ret; assumption.
    + apply steps_modify, steps_ret; assumption.
    + eapply steps_look; [exact Rp|exact E|]. eapply steps_look; [exact Ra|exact Ea|]. cbn.
      destruct (_ && _); cbn; repeat call_step; apply steps_ret; assumption.
    + unfold h_glue_step. apply steps_assoc. eapply steps_look; [exact Ra|exact Ea|]. cbn [flat t_glue pbind]. rewrite glue_ratio.
      destruct (glue_step gs g G T) as [[w G'] T']. apply steps_modify, steps_ret; assumption.
    + apply steps_modify, steps_ret; assumption.
  - eapply steps_read; [exact Rp|exact E|].
    assert (Plain : steps (x <~ look p ;; bx <~ look a ;;
        _ <~ (if fltb A f0 (if finf A (t_height x) then t_height bx else t_height x) && fltb A f0 (t_width x)
              then PPanic msg_render else PRet tt) ;;
        _ <~ modify (fun st => set_h (fadd A (s_h st) (t_width x)) st) ;; PRet (G, T)) st fp h
      (if fltb A f0 (if finf A (b_height b) then b_height bx else b_height b) && fltb A f0 (b_width b)
       then LPanic msg_render else LOk (TL kx b s g l, G, T, set_h (fadd A (s_h st) (b_width b)) st)) p (p :: fx) fr h).
    { eapply steps_look; [exact Rp|exact E|]. eapply steps_look; [exact Ra|exact Ea|]. cbn.
      destruct (_ && _); cbn; [apply steps_panic|]. call_step. apply steps_ret; assumption. }
    assert (Nest : steps (_ <~ modify (set_v (fadd A base s)) ;; _ <~ h_out n (is_vlist kx) p ;; x <~ look p ;;
          _ <~ modify (fun st' => set_v base (set_h (fadd A (s_h st) (t_width x)) st')) ;; PRet (G, T)) st fp h
        match out (is_vlist kx) b (TL kx b s g l) (set_v (fadd A base s) st) with
        | LOk (x', st') => LOk (x', G, T, set_v base (set_h (fadd A (s_h st) (b_width b)) st'))
        | LPanic e => LPanic e end p (p :: fx) fr h).
    { apply steps_modify. eapply (steps_rec _ _ _ _ _ _ _ _ _ (is_vlist kx) b (TL kx b s g l)); try eassumption.
      - intros x' st' h' Eo R' Ag'. rewrite Eo. destruct (ship_root _ _ _ _ _ _ _ _ _ _ Eo) as (l' & ->).
        destruct (repr_cell h' p _ _ R') as (c & Ec & Fc).
        eapply steps_look; [exact Rp|exact Ec|]. rewrite Fc. apply steps_modify, steps_ret; assumption.
      - intros e ->. reflexivity. }
    destruct kx, l as [|u l]; inversion Rs; subst; cbn -[ship_out h_ship_n look modify pbind];
      try (apply steps_modify, steps_ret; assumption); try exact Plain.
    all: apply steps_cur; exact Nest.
Qed.

Lemma ship_vstep (h : heap) a k bx sh gs ls left x p f fp fr n :
  nth_error h a = Some (CList k bx sh gs ls) -> repr h p x f -> NoDup f -> In a fr -> length f <= n ->
  incl f fp -> incl fr fp -> disjoint f fr -> bounded fr h ->
  ships x -> forall G T st,
  steps (h_vstep ox oy (h_out n) a (gs_sign gs) (gs_order gs) left p G T) st fp h
    (vstep out ox oy bx gs left x G T st) p f fr h.
Proof.
  intros Ea R D Ia L If Ir Dj B IH G T st.
  assert (Ag : agree fr h h) by (intros z _; reflexivity).
  assert (Ra : In a fp) by (apply Ir, Ia).
  assert (Rp : In p fp) by (apply If; eapply repr_in, R).
  unfold h_vstep. inversion R as [? ? E Lf|? kx b s g xs l fx E Rs]; subst.
  - eapply steps_read; [exact Rp|exact E|].
    destruct x as [b|c|c|b|g|z w|kx b s g l]; try destruct Lf; cbn -[glue_step pbind modify look cur].
    + eapply steps_look; [exact Rp|exact E|]. eapply steps_look; [exact Ra|exact Ea|]. cbn.
      destruct (_ && _); cbn; repeat call_step; apply steps_ret; assumption.
    + apply steps_panic.
    + apply steps_panic.
    + eapply steps_look; [exact Rp|exact E|]. eapply steps_look; [exact Ra|exact Ea|]. cbn.
      destruct (_ && _); cbn; repeat call_step; apply steps_ret; assumption.
    + unfold h_glue_step. apply steps_assoc. eapply steps_look; [exact Ra|exact Ea|]. cbn [flat t_glue pbind]. rewrite glue_ratio.
      destruct (glue_step gs g G T) as [[w G'] T']. apply steps_modify, steps_ret; assumption.
    + apply steps_modify, steps_ret; assumption.
  - eapply steps_read; [exact Rp|exact E|].
    assert (Plain : steps (x <~ look p ;; bx <~ look a ;;
        _ <~ (if fltb A f0 (fadd A (t_height x) (t_depth x)) && fltb A f0 (t_depth x)
              then _ <~ modify (fun st => set_v (fadd A (s_v st) (fadd A (t_height x) (t_depth x))) st) ;; PRet tt else PRet tt) ;;
        PRet (G, T)) st fp h
      (if fltb A f0 (fadd A (b_height b) (b_depth b)) && fltb A f0 (b_depth b)
            then LOk (TL kx b s g l, G, T, set_v (fadd A (s_v st) (fadd A (b_height b) (b_depth b))) st)
            else LOk (TL kx b s g l, G, T, st)) p (p :: fx) fr h).
    { eapply steps_look; [exact Rp|exact E|]. eapply steps_look; [exact Ra|exact Ea|]. cbn.
      destruct (_ && _); cbn; repeat call_step; apply steps_ret; assumption. }
    set (b' := box_width (b_width bx) b).
    set (st1 := set_h (fadd A left s) (set_v (fadd A (s_v st) (b_height b)) st)).
    assert (Nest : steps (bx <~ look a ;; _ <~ write p (CList kx (box_width (t_width bx) b) s g xs) ;;
          _ <~ h_out n (is_vlist kx) p ;; x <~ look p ;;
          _ <~ modify (set_v (fadd A (s_v st1) (t_depth x))) ;; _ <~ modify (set_h left) ;; PRet (G, T)) st1 fp h
        match out (is_vlist kx) b' (TL kx b s g l) st1 with
        | LOk (x', st') => LOk (x', G, T, set_h left (set_v (fadd A (s_v st1) (b_depth b)) st'))
        | LPanic e => LPanic e end p (p :: fx) fr h).
    { eapply steps_look; [exact Ra|exact Ea|]. cbn [flat t_width]. fold b'.
      assert (Np : ~ In p fr) by (apply Dj; left; reflexivity).
      assert (R1 : repr (update p (CList kx b' s g xs) h) p (TL kx b' s g l) (p :: fx)).
      { eapply set_root; [exact Rs|exact E|]. apply NoDup_cons_iff in D. apply D. }
      apply safe_write; [exact Rp|eapply nth_lt, E|].
      apply (steps_rec _ st1 fp _ _ p (p :: fx) fr h (is_vlist kx) b' (TL kx b s g l) n IH R1 D L If Ir Dj).
      - intros z Hz. rewrite update_length. apply B, Hz.
      - intros z Hz. apply update_other. intros ->. exact (Np Hz).
      - intros x' st' h' Eo R' Ag'. rewrite Eo. destruct (ship_root _ _ _ _ _ _ _ _ _ _ Eo) as (l' & ->).
        destruct (repr_cell h' p _ _ R') as (c & Ec & Fc).
        eapply steps_look; [exact Rp|exact Ec|]. rewrite Fc. apply steps_modify, steps_modify, steps_ret; assumption.
      - intros e ->. reflexivity. }
    destruct kx, l as [|u l]; inversion Rs; subst; cbn -[ship_out h_ship_n look modify pbind write];
      try (apply steps_modify, steps_ret; assumption); try exact Plain.
    all: apply steps_modify, steps_modify, steps_cur; exact Nest.
Qed.

(** Both kinds of list at once. *)
Definition stepv (vert : bool) bx gs e := if vert then vstep out ox oy bx gs e else hstep out ox oy bx gs e.
Definition h_stepv n (vert : bool) a (gs : @gset A) e :=
  if vert then h_vstep ox oy (h_out n) a (gs_sign gs) (gs_order gs) e
  else h_hstep ox oy (h_out n) a (gs_sign gs) (gs_order gs) e.

Lemma kids_cons stp (x : tnode) l G T (st : ship) : kids stp (x :: l) G T st =
  match stp x G T st with
  | LOk (x', G, T, st') => match kids stp l G T st' with LOk (r, st'') => LOk (x' :: r, st'') | LPanic e => LPanic e end
  | LPanic e => LPanic e end.
Proof. reflexivity. Qed.

Lemma ship_loop vert a k bx sh gs ls0 e n fp : forall l, Forall ships l ->
  forall (h : heap) ls f fr G T st, nth_error h a = Some (CList k bx sh gs ls0) -> reprs h ls l f -> NoDup f -> In a fr -> length f <= n ->
  incl f fp -> incl fr fp -> disjoint f fr -> bounded fr h ->
  safe (h_loop (h_stepv n vert a gs e) ls G T) st fp h
    (fun _ st' fp' h' => fp' = fp /\ agree fr h h' /\ exists l', kids (stepv vert bx gs e) l G T st = LOk (l', st') /\ reprs h' ls l' f)
    (fun m => kids (stepv vert bx gs e) l G T st = LPanic m).
Proof.
  induction 1 as [|x l Hx Hl IH]; intros h ls f fr G T st Ea R D Ia L If Ir Dj B.
  - inversion R; subst. apply safe_ret. intros h' Rl. split; [reflexivity|].
    split; [intros z Hz; apply Rl, Ir, Hz|]. exists []. split; [reflexivity|constructor].
  - inversion R as [|p ls' t' l' f1 fs R1 Rs]; subst. apply nodup_app in D as (D1 & D2 & D3). rewrite app_length in L.
    destruct (incl_app_inv _ _ If) as (I1 & Is).
    change (h_loop (h_stepv n vert a gs e) (p :: ls') G T)
      with (r <~ h_stepv n vert a gs e p G T ;; h_loop (h_stepv n vert a gs e) ls' (fst r) (snd r)).
    eapply safe_bind.
    + assert (H : steps (h_stepv n vert a gs e p G T) st fp h (stepv vert bx gs e x G T st) p f1 (fs ++ fr) h).
      { assert (Ia' : In a (fs ++ fr)) by (apply in_or_app; auto).
        assert (Ir' : incl (fs ++ fr) fp) by (apply incl_app; assumption).
        assert (Dj' : disjoint f1 (fs ++ fr)).
        { intros z Hz H. apply in_app_or in H as [H|H]; [exact (D3 z Hz H)|].
          apply (Dj z); [apply in_or_app; auto|exact H]. }
        assert (B' : bounded (fs ++ fr) h).
        { intros z Hz. apply in_app_or in Hz as [Hz|Hz]; [exact (reprs_bound h ls' l fs Rs z Hz)|apply B, Hz]. }
        unfold stepv, h_stepv. destruct vert; [eapply ship_vstep|eapply ship_hstep]; try eassumption; lia. }
      eapply safe_mono; [exact H|intros ? ? ? ? q; exact q|].
      cbn beta. intros m Em. rewrite kids_cons, Em. reflexivity.
    + cbn beta. intros [G' T'] st' fp' h1 (-> & Ag & x' & Ex & R1'). cbn [fst snd] in *.
      assert (Rs' : reprs h1 ls' l fs).
      { eapply reprs_frame; [exact Rs|]. intros y Hy. apply Ag, in_or_app. auto. }
      assert (Ea' : nth_error h1 a = Some (CList k bx sh gs ls0)).
      { rewrite <- Ea. apply Ag, in_or_app. auto. }
      eapply safe_mono; [apply (IH h1 ls' fs (f1 ++ fr) G' T' st' Ea' Rs' D2)| |].
      * apply in_or_app. auto.
      * lia.
      * exact Is.
      * apply incl_app; assumption.
      * intros z Hz H. apply in_app_or in H as [H|H]; [exact (D3 z H Hz)|].
        apply (Dj z); [apply in_or_app; auto|exact H].
      * intros z Hz. apply in_app_or in Hz as [Hz|Hz]; [exact (repr_bound h1 p x' f1 R1' z Hz)|].
        apply nth_error_Some. rewrite (Ag z (in_or_app _ _ _ (or_intror Hz))). apply nth_error_Some, B, Hz.
      * cbn beta. intros _ st2 fp' h2 (-> & Ag2 & l' & El & R2). split; [reflexivity|]. split.
        { intros z Hz. rewrite (Ag2 z (in_or_app _ _ _ (or_intror Hz))). apply Ag, in_or_app. auto. }
        exists (x' :: l'). split; [rewrite kids_cons, Ex, El; reflexivity|]. constructor; [|exact R2].
        eapply repr_frame; [exact R1'|]. intros y Hy. apply Ag2, in_or_app. auto.
      * cbn beta. intros m Em. rewrite kids_cons, Ex, Em. reflexivity.
Qed.

Lemma ships_all t : ships t.
Proof.
  induction t as [b|c|c|b|g|z w|k b sh g l IH] using tnode_ind'.
  1-6: intros vert bx h st a fp n R D L; cbn [set_box] in R; inversion R as [? ? E Lf|]; subst;
    (destruct n as [|n]; [cbn in L; lia|]); (eapply safe_read; [left; reflexivity|exact E|]); cbn;
    intros h' [_ Rl]; (split; [reflexivity|]); eexists; (split; [reflexivity|]);
    (constructor; [rewrite Rl by (left; reflexivity); exact E|exact Lf]).
  intros vert bx h st a fp n R D L. cbn [set_box] in R. inversion R as [? ? E Lf|? k' b' s' g' ls l' f E Rs]; subst; [destruct Lf|].
  destruct n as [|n]; [cbn in L; lia|]. cbn in L. apply NoDup_cons_iff in D as [Na D].
  pose proof (ship_loop vert a k bx sh g ls) as Lp.
  assert (Fin : forall e st1,
    safe (_ <~ h_loop (h_stepv n vert a g e) ls 0%Z f0 ;; modify pop) st1 (a :: f) h
      (fun _ st' fp' h' => fp' = a :: f /\ exists t',
         match kids (stepv vert bx g e) l 0%Z f0 st1 with LOk (l', st') => LOk (TL k bx sh g l', pop st') | LPanic e => LPanic e end = LOk (t', st')
         /\ repr h' a t' (a :: f))
      (fun m => match kids (stepv vert bx g e) l 0%Z f0 st1 with LOk (l', st') => LOk (TL k bx sh g l', pop st') | LPanic e => LPanic e end = LPanic m)).
  { intros e st1. eapply safe_bind.
    - eapply safe_mono; [apply (Lp e n (a :: f) l IH h ls f [a] 0%Z f0 st1 E Rs D)| |].
      + left; reflexivity.
      + lia.
      + apply incl_tl, incl_refl.
      + intros x [<-|[]]. left. reflexivity.
      + intros x Hx [<-|[]]. exact (Na Hx).
      + intros x [<-|[]]. eapply nth_lt, E.
      + intros ? ? ? ? q. exact q.
      + cbn beta. intros m ->. reflexivity.
    - cbn beta. intros _ st' fp' h' (-> & Ag & l' & El & R'). rewrite El. apply safe_call. apply safe_ret.
      intros h2 R2. split; [reflexivity|]. eexists. split; [reflexivity|].
      eapply repr_rely; [|apply incl_refl|exact R2]. econstructor; [|exact R'].
      rewrite <- E. apply Ag. left. reflexivity. }
  unfold stepv, h_stepv in Fin. cbn [ship_out h_ship_n].
  eapply safe_read; [left; reflexivity|exact E|]. cbn [pbind].
  apply safe_call. cbn [pbind]. apply safe_call. cbn [pbind].
  destruct vert; cbn [pbind].
  - apply safe_call. cbn [pbind]. apply Fin.
  - apply Fin.
Qed.

(** A traversal inside a program with a state of its own. *)
Lemma safe_local {T S X} (p : prog A T X) : forall st (s : S) fp (h : heap) (Q : X -> T -> list loc -> heap -> Prop) E,
  safe p st fp h Q E -> safe (local p st) s fp h (fun r s' fp' h' => s' = s /\ Q (fst r) (snd r) fp' h') E.
Proof.
  induction p as [x|e|a k IH|a c k IH|c k IH|k IH|V m k IH]; intros st s fp h Q E Sf; cbn [local].
  - intros h' R. split; [reflexivity|exact (Sf h' R)].
  - intros h' R. exact (Sf h' R).
  - intros h' R. destruct (Sf h' R) as (I & c & Ea & Sf'). split; [exact I|]. exists c. split; [exact Ea|]. apply IH, Sf'.
  - intros h' R. destruct (Sf h' R) as (I & La & Sf'). split; [exact I|]. split; [exact La|]. apply IH, Sf'.
  - intros h' R. apply IH, (Sf h' R).
  - intros h' R. apply IH, (Sf h' R).
  - destruct (m st) as [[y st']|e] eqn:Em.
    + apply IH. pose proof (Sf h (rely_refl fp h)) as S1. cbn in S1. rewrite Em in S1. exact S1.
    + intros h' R. pose proof (Sf h' R) as S1. cbn in S1. rewrite Em in S1. exact S1.
Qed.
End HeapShip.
