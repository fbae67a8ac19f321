(** C51: Fonts() under concurrency. *)
From Coq Require Import Arith List Bool Lia.
From Verif Require Import Ttf Once.
Import ListNotations.

Section Inv.
Context {Fnt : Type}.
Variable parse : nat -> option Fnt.
Notation world := (@world Fnt).
Notation pc := (@pc Fnt).

Definition inside (p : pc) : Prop :=
  match p with Check | Parse _ _ | Assign _ | Store _ | Unlock _ => True | _ => False end.
Definition outside_or_check (p : pc) : Prop :=
  match p with Idle | Load | Lock | Check => True | _ => False end.
Definition got_upto (n : nat) (got : list Fnt) : Prop := map Some got = map parse (seq 0 n).
Definition fresh_world (w : world) : Prop := w_heap w = [] /\ w_fnts w = None.

Definition final_ok (w : world) : Prop :=
  exists got, got_upto 4 got /\ w_parsed w = seq 0 4 /\ w_heap w = [build got] /\ w_fnts w = Some 0.
Definition final_bad (w : world) : Prop :=
  exists i, i < 4 /\ parse i = None /\ w_parsed w = seq 0 (S i) /\ fresh_world w.

Definition running (w : world) (t : nat) : Prop :=
  match w_pc w t with
  | Parse i got => i <= 4 /\ w_parsed w = seq 0 i /\ got_upto i got /\ fresh_world w
  | Assign got => w_parsed w = seq 0 4 /\ got_upto 4 got /\ fresh_world w
  | Store false => final_ok w
  | Store true => final_bad w
  | _ => False
  end.

Definition not_done (w : world) : Prop :=
  w_results w = [] /\
  ((w_parsed w = [] /\ fresh_world w /\ forall u, outside_or_check (w_pc w u)) \/
   (exists t, running w t /\ forall u, u <> t -> outside_or_check (w_pc w u))).

Definition panics (w : world) : nat :=
  List.length (filter (fun x => match snd x with Panicked => true | _ => false end) (w_results w)).

Definition is_done (w : world) : Prop :=
  (forall u, match w_pc w u with Parse _ _ | Assign _ | Store _ => False | _ => True end) /\
  ((final_ok w /\ (forall u, w_pc w u <> Unlock true) /\ (forall u r, In (u, r) (w_results w) -> r = Returned (Some 0))) \/
   (final_bad w /\ (forall u r, In (u, r) (w_results w) -> r = Returned None \/ r = Panicked) /\
    ((panics w = 0 /\ exists u, w_pc w u = Unlock true) \/ (panics w = 1 /\ forall u, w_pc w u <> Unlock true)))).

Definition inv (w : world) : Prop :=
  (forall t, inside (w_pc w t) <-> w_mutex w = Some t) /\
  if w_done w then is_done w else not_done w.

Lemma inv_start : inv start.
Proof.
  split; cbn.
  - intros t. split; [intros []|discriminate].
  - split; [reflexivity|]. left. repeat split. 
Qed.

Lemma upd_same f t (p : pc) : upd f t p t = p.
Proof. unfold upd. now rewrite Nat.eqb_refl. Qed.
Lemma upd_other f t (p : pc) u : u <> t -> upd f t p u = f u.
Proof. intros N. unfold upd. apply Nat.eqb_neq in N. now rewrite N. Qed.

Ltac cases_u u t := destruct (Nat.eq_dec u t) as [->|?]; [rewrite ?upd_same|rewrite ?upd_other by assumption].

(** The mutex part. *)
Lemma holder_same (w w' : world) t p : w_pc w' = upd (w_pc w) t p -> w_mutex w' = w_mutex w ->
  (inside p <-> inside (w_pc w t)) ->
  (forall u, inside (w_pc w u) <-> w_mutex w = Some u) -> forall u, inside (w_pc w' u) <-> w_mutex w' = Some u.
Proof. intros EP EM IP H u. rewrite EP, EM. cases_u u t; [rewrite IP|]; apply H. Qed.
Lemma holder_free (w w' : world) t p : w_pc w' = upd (w_pc w) t p -> w_mutex w' = None -> ~ inside p -> w_mutex w = Some t ->
  (forall u, inside (w_pc w u) <-> w_mutex w = Some u) -> forall u, inside (w_pc w' u) <-> w_mutex w' = Some u.
Proof.
  intros EP EM IP ET H u. rewrite EP, EM. cases_u u t; [split; [contradiction|discriminate]|].
  split; [|discriminate]. intros I. apply H in I. congruence.
Qed.

Lemma run_pc (w w' : world) t : running w t -> w_pc w' t = w_pc w t -> w_parsed w' = w_parsed w -> w_heap w' = w_heap w ->
  w_fnts w' = w_fnts w -> running w' t.
Proof.
  unfold running, final_ok, final_bad, fresh_world. intros R -> -> -> ->. exact R.
Qed.

(** A goroutine outside the critical part moves. *)
Lemma not_done_move (w w' : world) t p : not_done w -> w_pc w' = upd (w_pc w) t p -> outside_or_check (w_pc w t) -> outside_or_check p ->
  w_results w' = w_results w -> w_parsed w' = w_parsed w -> w_heap w' = w_heap w -> w_fnts w' = w_fnts w -> not_done w'.
Proof.
  intros (R & H) EP O1 O2 ER EPa EH EF. split; [congruence|]. destruct H as [(P & Fr & O)|(h & RH & O)].
  - left. repeat split; try congruence; try (destruct Fr; congruence).
    intros u. rewrite EP. cases_u u t; auto.
  - right. exists h. assert (N : h <> t).
    { intros ->. unfold running in RH. destruct (w_pc w t); cbn in *; contradiction. }
    split.
    + eapply run_pc; eauto. rewrite EP. now apply upd_other.
    + intros u Nu. rewrite EP. cases_u u t; auto.
Qed.
Lemma is_done_move (w w' : world) t p : is_done w -> w_pc w' = upd (w_pc w) t p ->
  match p with Parse _ _ | Assign _ | Store _ => False | _ => True end ->
  p <> Unlock true -> w_pc w t <> Unlock true ->
  w_results w' = w_results w -> w_parsed w' = w_parsed w -> w_heap w' = w_heap w -> w_fnts w' = w_fnts w -> is_done w'.
Proof.
  intros (N & H) EP Np Nu Nu' ER EPa EH EF. split.
  - intros u. rewrite EP. cases_u u t; [exact Np|apply N].
  - destruct H as [(FO & NU & RS)|(FB & RS & K)]; [left|right].
    + split; [destruct FO as (got & ?); exists got; rewrite EPa, EH, EF; assumption|]. split.
      * intros u. rewrite EP. cases_u u t; [exact Nu|apply NU].
      * intros u r I. rewrite ER in I. eauto.
    + split; [destruct FB as (i & ?); exists i; unfold fresh_world; rewrite EPa, EH, EF; assumption|]. split.
      * intros u r I. rewrite ER in I. eauto.
      * unfold panics. rewrite ER. destruct K as [(K & u & KU)|(K & KU)]; [left|right]; split; auto.
        -- exists u. rewrite EP. rewrite upd_other; [assumption|]. intros ->. contradiction.
        -- intros u. rewrite EP. cases_u u t; [exact Nu|apply KU].
Qed.

Lemma got_nil : got_upto 0 []. Proof. reflexivity. Qed.
Lemma got_snoc i got f : got_upto i got -> parse i = Some f -> got_upto (S i) (got ++ [f]).
Proof.
  unfold got_upto. intros G P. rewrite seq_S, !map_app, G. cbn. now rewrite P.
Qed.

Ltac hsame H := eapply holder_same; [reflexivity|reflexivity|rewrite H; cbn; tauto|assumption].

Ltac dmove H := eapply is_done_move; [eassumption|reflexivity|exact I|discriminate|rewrite H; discriminate|reflexivity|reflexivity|reflexivity|reflexivity].
Ltac nmove H := eapply not_done_move; [eassumption|reflexivity|rewrite H; exact I|exact I|reflexivity|reflexivity|reflexivity|reflexivity].

Lemma inv_step w t w' : inv w -> step parse t w w' -> inv w'.
Proof.
  intros (HM & HD) ST. inversion ST; subst; clear ST; unfold goto.
  - (* call *) split; [hsame H|]. cbn.
    destruct (w_done w); [dmove H|nmove H].
  - (* load, done *) split; [hsame H|]. cbn. rewrite H0 in *.
    dmove H.
  - (* load, not done *) split; [hsame H|]. cbn. rewrite H0 in *.
    nmove H.
  - (* lock *) split.
    + cbn. intros u. cases_u u t; [cbn; tauto|]. split; [|intros X; injection X as ->; contradiction].
      intros I. apply HM in I. congruence.
    + cbn. destruct (w_done w); [dmove H|nmove H].
  - (* check, done *) split; [hsame H|]. cbn. rewrite H0 in *.
    dmove H.
  - (* check, not done: the first one in *) split; [hsame H|]. cbn. rewrite H0 in *.
    destruct HD as (R & HD). split; [exact R|]. right. exists t.
    assert (MT : w_mutex w = Some t) by (apply HM; rewrite H; exact I).
    destruct HD as [(P & Fr & O)|(h & RH & O)].
    + split.
      * unfold running. cbn. rewrite upd_same. split; [lia|]. split; [exact P|]. split; [apply got_nil|exact Fr].
      * intros u Nu. cbn. rewrite upd_other by assumption. apply O.
    + exfalso. assert (MH : w_mutex w = Some h).
      { apply HM. unfold running in RH. destruct (w_pc w h) as [| | | | | | []| |]; cbn; auto; contradiction. }
      assert (h = t) by congruence. subst h. unfold running in RH. rewrite H in RH. exact RH.
  - (* parse *) split; [hsame H|]. cbn.
    destruct (w_done w); [exfalso; destruct HD as [HD _]; specialize (HD t); rewrite H in HD; exact HD|].
    destruct HD as (R & [(P & Fr & O)|(h & RH & O)]).
    { exfalso. specialize (O t). rewrite H in O. exact O. }
    destruct (Nat.eq_dec t h) as [<-|N]; [|exfalso; specialize (O t N); rewrite H in O; exact O].
    unfold running in RH. rewrite H in RH. destruct RH as (Li & P & G & Fr).
    split; [exact R|]. right. exists t. split.
    + unfold running. cbn. rewrite upd_same. split; [lia|]. split; [rewrite P, seq_S; reflexivity|].
      split; [now apply got_snoc|exact Fr].
    + intros u Nu. cbn. rewrite upd_other by assumption. now apply O.
  - (* parse error *) split; [hsame H|]. cbn.
    destruct (w_done w); [exfalso; destruct HD as [HD _]; specialize (HD t); rewrite H in HD; exact HD|].
    destruct HD as (R & [(P & Fr & O)|(h & RH & O)]).
    { exfalso. specialize (O t). rewrite H in O. exact O. }
    destruct (Nat.eq_dec t h) as [<-|N]; [|exfalso; specialize (O t N); rewrite H in O; exact O].
    unfold running in RH. rewrite H in RH. destruct RH as (Li & P & G & Fr).
    split; [exact R|]. right. exists t. split.
    + unfold running. cbn. rewrite upd_same. exists i. split; [assumption|]. split; [assumption|].
      split; [rewrite seq_S; cbn [w_parsed]; now rewrite P|exact Fr].
    + intros u Nu. cbn. rewrite upd_other by assumption. now apply O.
  - (* all parsed *) split; [hsame H|]. cbn.
    destruct (w_done w); [exfalso; destruct HD as [HD _]; specialize (HD t); rewrite H in HD; exact HD|].
    destruct HD as (R & [(P & Fr & O)|(h & RH & O)]).
    { exfalso. specialize (O t). rewrite H in O. exact O. }
    destruct (Nat.eq_dec t h) as [<-|N]; [|exfalso; specialize (O t N); rewrite H in O; exact O].
    unfold running in RH. rewrite H in RH. destruct RH as (Li & P & G & Fr).
    split; [exact R|]. right. exists t. split.
    + unfold running. cbn. rewrite upd_same. auto.
    + intros u Nu. cbn. rewrite upd_other by assumption. now apply O.
  - (* assign *) split; [hsame H|]. cbn.
    destruct (w_done w); [exfalso; destruct HD as [HD _]; specialize (HD t); rewrite H in HD; exact HD|].
    destruct HD as (R & [(P & Fr & O)|(h & RH & O)]).
    { exfalso. specialize (O t). rewrite H in O. exact O. }
    destruct (Nat.eq_dec t h) as [<-|N]; [|exfalso; specialize (O t N); rewrite H in O; exact O].
    unfold running in RH. rewrite H in RH. destruct RH as (P & G & Fr).
    split; [exact R|]. right. exists t. split.
    + unfold running. cbn. rewrite upd_same. exists got. destruct Fr as [Fr1 Fr2]. cbn. rewrite Fr1. auto.
    + intros u Nu. cbn. rewrite upd_other by assumption. now apply O.
  - (* store *) split; [hsame H|]. cbn.
    destruct (w_done w); [exfalso; destruct HD as [HD _]; specialize (HD t); rewrite H in HD; exact HD|].
    destruct HD as (R & [(P & Fr & O)|(h & RH & O)]).
    { exfalso. specialize (O t). rewrite H in O. exact O. }
    destruct (Nat.eq_dec t h) as [<-|N]; [|exfalso; specialize (O t N); rewrite H in O; exact O].
    unfold running in RH. rewrite H in RH.
    split.
    + intros u. cbn. cases_u u t; [exact I|]. specialize (O u n). destruct (w_pc w u); cbn in O |- *; auto.
    + assert (NU : forall u, u <> t -> w_pc w u <> Unlock true).
      { intros u Nu X. specialize (O u Nu). rewrite X in O. exact O. }
      destruct p; [right|left].
      * split; [exact RH|]. cbn. rewrite R. split; [intros ? ? []|]. left. unfold panics. cbn. try rewrite R.
        split; [reflexivity|]. exists t. now rewrite upd_same.
      * split; [exact RH|]. cbn. rewrite R. split; [|intros ? ? []]. intros u. cases_u u t; [discriminate|auto].
  - (* unlock *) split; [eapply holder_free; [reflexivity|reflexivity|cbn; tauto|apply HM; rewrite H; exact I|exact HM]|]. cbn.
    destruct (w_done w).
    + dmove H.
    + exfalso. destruct HD as (R & [(P & Fr & O)|(h & RH & O)]); [specialize (O t); rewrite H in O; exact O|].
      destruct (Nat.eq_dec t h) as [<-|N]; [unfold running in RH; rewrite H in RH; exact RH|].
      specialize (O t N); rewrite H in O; exact O.
  - (* unlock, panicking *) split; [eapply holder_free; [reflexivity|reflexivity|cbn; tauto|apply HM; rewrite H; exact I|exact HM]|]. cbn.
    destruct (w_done w).
    + destruct HD as (NP & [(FO & NU & RS)|(FB & RS & K)]); [exfalso; exact (NU t H)|].
      split.
      * intros u. cbn. cases_u u t; [exact I|apply NP].
      * right. split; [exact FB|]. cbn. split.
        -- intros u r I0. apply in_app_iff in I0 as [I0|[I0|[]]]; [eauto|]. injection I0 as <- <-. now right.
        -- right. unfold panics. cbn. rewrite filter_app, app_length. cbn [filter snd List.length]. 
           destruct K as [(K & u & KU)|(K & KU)]; [|exfalso; exact (KU t H)].
           unfold panics in K. rewrite K. split; [reflexivity|]. intros v. cases_u v t; [discriminate|].
           intros X. assert (MV : w_mutex w = Some v) by (apply HM; rewrite X; exact I).
           assert (MT : w_mutex w = Some t) by (apply HM; rewrite H; exact I). congruence.
    + exfalso. destruct HD as (R & [(P & Fr & O)|(h & RH & O)]); [specialize (O t); rewrite H in O; exact O|].
      destruct (Nat.eq_dec t h) as [<-|N]; [unfold running in RH; rewrite H in RH; exact RH|].
      specialize (O t N); rewrite H in O; exact O.
  - (* read *) split; [hsame H|]. cbn.
    destruct (w_done w).
    + destruct HD as (NP & HD). split.
      * intros u. cbn. cases_u u t; [exact I|apply NP].
      * destruct HD as [(FO & NU & RS)|(FB & RS & K)]; [left|right].
        -- split; [exact FO|]. cbn. split; [intros u; cases_u u t; [discriminate|apply NU]|].
           intros u r I0. apply in_app_iff in I0 as [I0|[I0|[]]]; [eauto|]. injection I0 as <- <-.
           destruct FO as (got & _ & _ & _ & ->). reflexivity.
        -- split; [exact FB|]. cbn. split.
           ++ intros u r I0. apply in_app_iff in I0 as [I0|[I0|[]]]; [eauto|]. injection I0 as <- <-. left.
              destruct FB as (i & _ & _ & _ & _ & ->). reflexivity.
           ++ unfold panics. cbn. rewrite filter_app, app_length. cbn. rewrite Nat.add_0_r.
              destruct K as [(K & u & KU)|(K & KU)]; [left|right]; split; auto.
              ** exists u. rewrite upd_other; [exact KU|]. intros ->. congruence.
              ** intros u. cases_u u t; [discriminate|apply KU].
    + exfalso. destruct HD as (R & [(P & Fr & O)|(h & RH & O)]); [specialize (O t); rewrite H in O; exact O|].
      destruct (Nat.eq_dec t h) as [<-|N]; [unfold running in RH; rewrite H in RH; exact RH|].
      specialize (O t N); rewrite H in O; exact O.
Qed.

Lemma reachable_inv w : reachable parse w -> inv w.
Proof. induction 1; [apply inv_start|eapply inv_step; eauto]. Qed.

End Inv.

Section Thms.
Context {Fnt : Type}.
Variable parse : nat -> option Fnt.
Notation world := (@world Fnt).

(** Whatever the schedule, each file is given to sfnt.Parse at most once. *)
Theorem C51_parsed_at_most_once : forall w : world, reachable parse w ->
  NoDup (w_parsed w) /\ forall i, In i (w_parsed w) -> i < 4.
Proof.
  intros w R. destruct (reachable_inv parse w R) as (_ & H).
  assert (S : exists n, n <= 4 /\ w_parsed w = seq 0 n).
  { destruct (w_done w).
    - destruct H as (_ & [((got & _ & P & _) & _)|((i & L & _ & P & _) & _)]); eauto.
    - destruct H as (_ & [(P & _)|(t & RT & _)]); [exists 0; auto with arith|].
      unfold running in RT. destruct (w_pc w t) as [| | | |i got|got|[]| |]; try contradiction.
      + exists i. intuition.
      + exists 4. intuition.
      + destruct RT as (i & L & _ & P & _). eauto.
      + destruct RT as (got & _ & P & _). eauto. }
  destruct S as (n & L & ->). split; [apply seq_NoDup|]. intros i I. apply in_seq in I. lia.
Qed.

(** If the four files are good, no call panics, and all calls that have returned
    returned the same address, at which there is a value with all five fields set
    from the files. *)
Theorem C51_same_value : forall f0 f1 f2 f3,
  parse 0 = Some f0 -> parse 1 = Some f1 -> parse 2 = Some f2 -> parse 3 = Some f3 ->
  forall w : world, reachable parse w -> forall t r, In (t, r) (w_results w) ->
  r = Returned (Some 0) /\
  nth_error (w_heap w) 0 = Some (mk_fonts (Some f0) (Some f0) (Some f1) (Some f2) (Some f3)) /\
  w_fnts w = Some 0.
Proof.
  intros f0 f1 f2 f3 P0 P1 P2 P3 w R t r I.
  destruct (reachable_inv parse w R) as (_ & H). destruct (w_done w).
  - destruct H as (_ & [((got & G & _ & HH & HF) & _ & RS)|((i & L & PN & _) & _)]).
    + split; [eauto|]. split; [|exact HF]. rewrite HH. cbn.
      unfold got_upto in G. cbn [seq map] in G. rewrite P0, P1, P2, P3 in G.
      destruct got as [|a [|b [|c [|d [|]]]]]; try discriminate G. injection G as -> -> -> ->. reflexivity.
    + exfalso. destruct i as [|[|[|[|]]]]; try congruence. lia.
  - destruct H as (RS & _). rewrite RS in I. destruct I.
Qed.
(** What is published stays as it is. *)
Theorem C51_never_changes : forall (w w' : world) p v, reachable parse w -> steps parse w w' ->
  w_done w = true -> (w_fnts w' = w_fnts w) /\ (nth_error (w_heap w) p = Some v -> nth_error (w_heap w') p = Some v).
Proof.
  intros w w' p v R ST. induction ST as [|w t w1 w2 S1 S2 IH]; intros D; [auto|].
  assert (R1 : reachable parse w1) by (eapply r_step; eauto).
  destruct (reachable_inv parse w R) as (_ & H). rewrite D in H. destruct H as (NP & _). specialize (NP t).
  assert (Q : w_done w1 = true /\ w_fnts w1 = w_fnts w /\ w_heap w1 = w_heap w).
  { inversion S1; subst; cbn; auto; match goal with E : w_pc w t = _ |- _ => rewrite E in NP end; contradiction. }
  destruct Q as (D1 & E1 & E2). destruct (IH R1 D1) as (A & B). rewrite <- E1, <- E2. auto.
Qed.

(** If a file is bad, one call panics and all others return nil. *)
Theorem C51_bad_file : forall i, i < 4 -> parse i = None -> forall w : world, reachable parse w ->
  (forall t r, In (t, r) (w_results w) -> r = Returned None \/ r = Panicked) /\
  List.length (filter (fun x => match snd x with Panicked => true | _ => false end) (w_results w)) <= 1.
Proof.
  intros i L PN w R. destruct (reachable_inv parse w R) as (_ & H). destruct (w_done w).
  - destruct H as (_ & [((got & G & _) & _)|(_ & RS & K)]).
    + exfalso. unfold got_upto in G. cbn [seq map] in G.
      assert (X : In (@None Fnt) (map Some got)).
      { rewrite G. cbn. destruct i as [|[|[|[|]]]]; try lia; rewrite PN; tauto. }
      apply in_map_iff in X as (? & X & _). discriminate X.
    + split; [exact RS|]. unfold panics in K. destruct K as [(K & _)|(K & _)]; rewrite K; lia.
  - destruct H as (RS & _). rewrite RS. cbn. split; [intros ? ? []|lia].
Qed.

(** No data race: the variable fnts is never written by one goroutine while
    another one reads or writes it. *)
Theorem C51_no_race : forall w : world, reachable parse w -> forall t u got,
  w_pc w t = Assign got -> u <> t -> w_pc w u <> Read /\ forall got', w_pc w u <> Assign got'.
Proof.
  intros w R t u got A N. destruct (reachable_inv parse w R) as (HM & H). destruct (w_done w).
  - exfalso. destruct H as (NP & _). specialize (NP t). rewrite A in NP. exact NP.
  - destruct H as (_ & [(_ & _ & O)|(h & _ & O)]).
    + exfalso. specialize (O t). rewrite A in O. exact O.
    + destruct (Nat.eq_dec t h) as [->|N']; [|exfalso; specialize (O t N'); rewrite A in O; exact O].
      specialize (O u N). split; [intros E|intros got' E]; rewrite E in O; exact O.
Qed.

(** No deadlock: every call can finish. *)
Lemma steps_app (a b c : world) : steps parse a b -> steps parse b c -> steps parse a c.
Proof. induction 1; [auto|]. intros. econstructor; eauto. Qed.
Lemma one t (a b : world) : step parse t a b -> steps parse a b.
Proof. intros. econstructor; [eassumption|constructor]. Qed.

(** The holder of the mutex can run to the end of its call. *)
Definition finishes (w : world) (t : nat) : Prop :=
  exists w', steps parse w w' /\ w_pc w' t = Idle /\ w_mutex w' = None /\ forall u, u <> t -> w_pc w' u = w_pc w u.
Lemma fin_step (w w1 : world) t : step parse t w w1 -> (forall u, u <> t -> w_pc w1 u = w_pc w u) -> finishes w1 t -> finishes w t.
Proof.
  intros S O (w' & S' & P & M & O'). exists w'. split; [econstructor; eassumption|]. repeat split; auto.
  intros u N. rewrite O', O; auto.
Qed.
Ltac others := intros; cbn; apply upd_other; assumption.
Lemma fin_unlock w t p : w_pc w t = Unlock p -> finishes w t.
Proof.
  intros E. destruct p.
  - eexists. split; [eapply one; eapply s_unlock_panic; exact E|]. cbn. rewrite upd_same. repeat split. others.
  - eapply fin_step; [eapply s_unlock; exact E|others|].
    eexists. split; [eapply one; eapply s_read; cbn; apply upd_same|]. cbn. rewrite upd_same. repeat split. others.
Qed.
Lemma fin_store w t p : w_pc w t = Store p -> finishes w t.
Proof. intros E. eapply fin_step; [eapply s_store; exact E|others|]. eapply fin_unlock. cbn. apply upd_same. Qed.
Lemma fin_assign w t got : w_pc w t = Assign got -> finishes w t.
Proof. intros E. eapply fin_step; [eapply s_assign; exact E|others|]. eapply fin_store. cbn. apply upd_same. Qed.
Lemma fin_parse n : forall w t i got, w_pc w t = Parse i got -> i + n = 4 -> finishes w t.
Proof.
  induction n as [|n IH]; intros w t i got E L.
  - replace i with 4 in E by lia. eapply fin_step; [eapply s_parsed; exact E|others|]. eapply fin_assign. cbn. apply upd_same.
  - destruct (parse i) as [f|] eqn:P.
    + eapply fin_step; [eapply s_parse_ok; [exact E|lia|exact P]|others|]. eapply (IH _ _ (S i)); [cbn; apply upd_same|lia].
    + eapply fin_step; [eapply s_parse_err; [exact E|lia|exact P]|others|]. eapply fin_store. cbn. apply upd_same.
Qed.
Lemma fin_check w t : w_pc w t = Check -> finishes w t.
Proof.
  intros E. destruct (w_done w) eqn:D.
  - eapply fin_step; [eapply s_check_done; assumption|others|]. eapply fin_unlock. cbn. apply upd_same.
  - eapply fin_step; [eapply s_check_not; assumption|others|]. eapply (fin_parse 4 _ _ 0); [cbn; apply upd_same|lia].
Qed.
Lemma fin_inside w t : inv parse w -> inside (w_pc w t) -> finishes w t.
Proof.
  intros H I. destruct (w_pc w t) as [| | | |i got|got|p|p|] eqn:E; try destruct I.
  - now apply fin_check.
  - destruct H as (_ & H). destruct (w_done w).
    + exfalso. destruct H as (NP & _). specialize (NP t). rewrite E in NP. exact NP.
    + destruct H as (_ & [(_ & _ & O)|(h & RH & O)]); [exfalso; specialize (O t); rewrite E in O; exact O|].
      destruct (Nat.eq_dec t h) as [<-|N]; [|exfalso; specialize (O t N); rewrite E in O; exact O].
      unfold running in RH. rewrite E in RH. eapply (fin_parse (4 - i)); [exact E|]. lia.
  - eapply fin_assign; exact E.
  - eapply fin_store; exact E.
  - eapply fin_unlock; exact E.
Qed.

Theorem C51_no_deadlock : forall w : world, reachable parse w -> forall t, exists w',
  steps parse w w' /\ w_pc w' t = Idle.
Proof.
  intros w R t. pose proof (reachable_inv parse w R) as H.
  assert (LK : forall w, reachable parse w -> w_pc w t = Lock -> exists w', steps parse w w' /\ w_pc w' t = Idle).
  { clear w R H. intros w R E. pose proof (reachable_inv parse w R) as H.
    assert (Free : exists w1, steps parse w w1 /\ w_mutex w1 = None /\ w_pc w1 t = Lock).
    { destruct (w_mutex w) as [h|] eqn:M.
      - assert (I : inside (w_pc w h)) by (apply H; exact M).
        destruct (fin_inside w h H I) as (w1 & S1 & _ & M1 & O1). exists w1. repeat split; auto.
        rewrite O1; [exact E|]. intros ->. rewrite E in I. exact I.
      - exists w. repeat split; auto. constructor. }
    destruct Free as (w1 & S1 & M1 & E1).
    assert (FC : finishes w1 t).
    { eapply fin_step; [eapply s_lock; assumption|others|]. apply fin_check. cbn. apply upd_same. }
    destruct FC as (w2 & S2 & P2 & _). exists w2. split; [eapply steps_app; eassumption|exact P2]. }
  assert (RD : forall w, w_pc w t = Read -> exists w', steps parse w w' /\ w_pc w' t = Idle).
  { intros w0 E. eexists. split; [eapply one; eapply s_read; exact E|]. cbn. apply upd_same. }
  assert (LD : forall w, reachable parse w -> w_pc w t = Load -> exists w', steps parse w w' /\ w_pc w' t = Idle).
  { intros w0 R0 E. destruct (w_done w0) eqn:D.
    - destruct (RD (goto t Read w0)) as (w' & S & P); [cbn; apply upd_same|]. exists w'. split; [|exact P].
      eapply (st_step parse w0 t); [eapply s_load_done; [exact E|exact D]|exact S].
    - destruct (LK (goto t Lock w0)) as (w' & S & P); [eapply r_step; [exact R0|eapply s_load_not; assumption]|cbn; apply upd_same|].
      exists w'. split; [|exact P]. eapply (st_step parse w0 t); [eapply s_load_not; [exact E|exact D]|exact S]. }
  destruct (w_pc w t) as [| | | |i got|got|p|p|] eqn:E; auto.
  - exists w. split; [constructor|exact E].
  - destruct (fin_inside w t H) as (w' & S & P & _); [rewrite E; exact I|eauto].
  - destruct (fin_inside w t H) as (w' & S & P & _); [rewrite E; exact I|eauto].
  - destruct (fin_inside w t H) as (w' & S & P & _); [rewrite E; exact I|eauto].
  - destruct (fin_inside w t H) as (w' & S & P & _); [rewrite E; exact I|eauto].
  - destruct (fin_inside w t H) as (w' & S & P & _); [rewrite E; exact I|eauto].
Qed.
End Thms.

(** A scheduler that runs given goroutines in turn, to compute examples. *)
Section Run.
Context {Fnt : Type}.
Variable parse : nat -> option Fnt.
Definition exec (t : nat) (w : world) : option (@world Fnt) :=
  match w_pc w t with
  | Idle => Some (goto t Load w)
  | Load => Some (goto t (if w_done w then Read else Lock) w)
  | Lock =>
    match w_mutex w with
    | None => Some (mk_world (w_done w) (Some t) (w_fnts w) (w_heap w) (w_parsed w) (w_results w) (upd (w_pc w) t Check))
    | Some _ => None
    end
  | Check => Some (goto t (if w_done w then Unlock false else Parse 0 []) w)
  | Parse i got =>
    if i <? 4 then
      match parse i with
      | Some f => Some (mk_world (w_done w) (w_mutex w) (w_fnts w) (w_heap w) (w_parsed w ++ [i]) (w_results w)
                    (upd (w_pc w) t (Parse (S i) (got ++ [f]))))
      | None => Some (mk_world (w_done w) (w_mutex w) (w_fnts w) (w_heap w) (w_parsed w ++ [i]) (w_results w)
                  (upd (w_pc w) t (Store true)))
      end
    else if i =? 4 then Some (goto t (Assign got) w) else None
  | Assign got => Some (mk_world (w_done w) (w_mutex w) (Some (List.length (w_heap w))) (w_heap w ++ [build got])
                  (w_parsed w) (w_results w) (upd (w_pc w) t (Store false)))
  | Store p => Some (mk_world true (w_mutex w) (w_fnts w) (w_heap w) (w_parsed w) (w_results w) (upd (w_pc w) t (Unlock p)))
  | Unlock false => Some (mk_world (w_done w) None (w_fnts w) (w_heap w) (w_parsed w) (w_results w) (upd (w_pc w) t Read))
  | Unlock true => Some (mk_world (w_done w) None (w_fnts w) (w_heap w) (w_parsed w) (w_results w ++ [(t, Panicked)])
                  (upd (w_pc w) t Idle))
  | Read => Some (mk_world (w_done w) (w_mutex w) (w_fnts w) (w_heap w) (w_parsed w)
                  (w_results w ++ [(t, Returned (w_fnts w))]) (upd (w_pc w) t Idle))
  end.
Lemma exec_step t w w' : exec t w = Some w' -> step parse t w w'.
Proof.
  unfold exec. destruct (w_pc w t) as [| | | |i got|got|p|p|] eqn:E; intros H.
  - injection H as <-. now apply s_call.
  - injection H as <-. destruct (w_done w) eqn:D; [now apply s_load_done|now apply s_load_not].
  - destruct (w_mutex w) eqn:D; [discriminate H|]. injection H as <-. now apply s_lock.
  - injection H as <-. destruct (w_done w) eqn:D; [now apply s_check_done|now apply s_check_not].
  - destruct (Nat.ltb_spec i 4).
    + destruct (parse i) as [f|] eqn:P; injection H as <-; [now apply s_parse_ok|now apply (s_parse_err parse t w i got)].
    + destruct (Nat.eqb_spec i 4) as [->|]; [|discriminate H]. injection H as <-. now apply s_parsed.
  - injection H as <-. now apply s_assign.
  - injection H as <-. now apply s_store.
  - destruct p; injection H as <-; [now apply s_unlock_panic|now apply s_unlock].
  - injection H as <-. now apply s_read.
Qed.
Fixpoint run (l : list nat) (w : world) : option world :=
  match l with
  | [] => Some w
  | t :: l => match exec t w with Some w' => run l w' | None => None end
  end.
Lemma run_reachable l : forall w w', reachable parse w -> run l w = Some w' -> reachable parse w'.
Proof.
  induction l as [|t l IH]; cbn; intros w w' R H.
  - injection H as <-. exact R.
  - destruct (exec t w) as [w1|] eqn:E; [|discriminate H].
    apply (IH w1); [eapply r_step; [exact R|apply exec_step; exact E]|exact H].
Qed.
Lemma ran l rs : option_map w_results (run l start) = Some rs -> exists w, reachable parse w /\ w_results w = rs.
Proof.
  destruct (run l start) as [w|] eqn:E; [|intros H; discriminate H]. cbn. intros [= <-].
  exists w. split; [|reflexivity]. eapply run_reachable; [apply r_start|exact E].
Qed.
End Run.

(** Two goroutines, interleaved: the second one is at the mutex while the first
    one parses; both return the same address. *)
Example C51_case : exists w : world, reachable (fun i => Some i) w /\
  w_results w = [(2, Returned (Some 0)); (1, Returned (Some 0))].
Proof. apply (ran _ [1;1;1;1;2;1;1;1;2;1;1;1;1;1;2;2;2;2;1]). vm_compute. reflexivity. Qed.
(** The third file is bad: the first call panics, later ones return nil. *)
Example C51_case_bad : exists w : world, reachable (fun i => if i =? 2 then None else Some i) w /\
  w_results w = [(1, Panicked); (2, Returned None); (1, Returned None)].
Proof. apply (ran _ ([1;1;1;2;2] ++ repeat 1 6 ++ repeat 2 4 ++ [1;1;1])). vm_compute. reflexivity. Qed.
