(** A program logic for mtex: an invariant of the backend's state and a property
    of every character it measures are carried through the whole typesetting of an
    expression. *)
From Coq Require Import ZArith String Ascii List Bool Lia.
From Verif Require Import Utf8 Token Ast Parser Symbols TreeSpec Arith Box Ship ShipFacts2 Mtex MtexSpec MtexFacts MtexFacts2 MtexFacts4.
Import ListNotations.
Local Open Scope string_scope.
Local Open Scope list_scope.
Local Open Scope Z_scope.

Section Hoare.
Context {A : arith} {S : Type}.
Variable range : Symbols.gset -> list string.
Variable be : @backend A S.
Variable parse_float : string -> option (Arith.F A).
Variable expr : string.
Notation tnode := (@Box.tnode A).
Notation state := (@Box.state A).
Notation tchar := (@Box.tchar A).
Notation visitor := (@visitor A).
Notation go := (go range be parse_float expr).
Notation M := (@M S).

(** [I]: invariant; [R]: how the state may change; [G]: math flags in use; [N]:
    layout states in use; [Q]: what holds of the characters. *)
Variable I : S -> Prop.
Variable R : S -> S -> Prop.
Variable G : bool -> Prop.
Variable N : state -> Prop.
Variable Q : S -> tchar -> Prop.

Record rules : Prop := mk_rules {
  r_refl : forall s, R s s;
  r_trans : forall a b c, R a b -> R b c -> R a c;
  r_mono : forall s s' c, R s s' -> Q s c -> Q s' c;
  r_true : G true;
  r_type : forall st t, N st -> N (set_type t st);
  r_scale : forall st f, N st -> N (mk_state (scale_font f (st_font st)) (st_dpi st));
  r_metrics : forall s sym ft dpi m x s', I s -> G m -> be_metrics be sym ft dpi m s = LOk (x, s') -> I s' /\ R s s';
  r_kern : forall s c n x s', I s -> Q s c -> Q s n ->
    be_kern be (c_font c) (c_sym c) (c_font n) (c_sym n) (c_dpi c) s = LOk (x, s') -> I s' /\ R s s';
  r_xheight : forall s ft dpi x s', I s -> be_xheight be ft dpi s = LOk (x, s') -> I s' /\ R s s';
  r_under : forall s ft dpi x s', I s -> be_underline be ft dpi s = LOk (x, s') -> I s' /\ R s s';
  r_char : forall s sym st m c s', I s -> G m -> N st -> new_char be sym st m s = LOk (c, s') ->
    I s' /\ R s s' /\ Q s' c;
  r_shrink : forall s c, Q s c -> Q s (char_shrink c) }.
Hypothesis RU : rules.

(** All characters of a tree; accents do not occur. *)
Fixpoint tq (s : S) (t : tnode) : Prop :=
  match t with
  | TChar c => Q s c
  | TAccent _ => False
  | TL _ _ _ _ l => fold_right (fun x p => tq s x /\ p) True l
  | _ => True
  end.
Definition tql (s : S) (l : list tnode) : Prop := fold_right (fun x p => tq s x /\ p) True l.
Lemma tql_forall s l : tql s l <-> Forall (tq s) l.
Proof. induction l; cbn; split; intros H; auto; [constructor; tauto|inversion H; tauto]. Qed.
Lemma tq_list s k b sh gs l : tq s (TL k b sh gs l) <-> tql s l. Proof. reflexivity. Qed.
Lemma tql_app s l l' : tql s (l ++ l') <-> tql s l /\ tql s l'.
Proof. rewrite !tql_forall. apply Forall_app. Qed.

Lemma tq_mono s s' t : R s s' -> tq s t -> tq s' t.
Proof.
  intros H. induction t using tnode_ind'; cbn [tq]; auto.
  - intros; eapply (r_mono RU); eauto.
  - induction H0 as [|x l Hx _ IH]; cbn; [auto|]. intros [H1 H2]. auto.
Qed.
Lemma tql_mono s s' l : R s s' -> tql s l -> tql s' l.
Proof. intros H. rewrite !tql_forall. apply Forall_impl. intros t. now apply tq_mono. Qed.

(** [s] can become [s'], keeping the invariant. *)
Definition to (s s' : S) : Prop := I s' /\ R s s'.
Lemma to_refl s : I s -> to s s.
Proof. intros; split; [assumption|apply (r_refl RU)]. Qed.
Lemma to_trans a b c : to a b -> to b c -> to a c.
Proof. intros [_ H1] [H2 H3]. split; [assumption|]. eapply (r_trans RU); eassumption. Qed.

(** A computation that keeps the invariant and whose result satisfies [P], started
    where [Pre] holds. *)
Definition trip {X} (Pre : S -> Prop) (m : M X) (P : S -> X -> Prop) : Prop :=
  forall s x s', I s -> Pre s -> m s = LOk (x, s') -> to s s' /\ P s' x.
Definition stable (Pre : S -> Prop) : Prop := forall s s', R s s' -> Pre s -> Pre s'.

Lemma trip_bind {X Y} Pre (m : M X) P (k : X -> M Y) P' :
  stable Pre -> trip Pre m P -> (forall x, trip (fun s => Pre s /\ P s x) (k x) P') -> trip Pre (mbind m k) P'.
Proof.
  intros ST H1 H2 s y s' Hi Hp E. apply bind_ok in E as (x & s1 & E1 & E2).
  destruct (H1 _ _ _ Hi Hp E1) as ([I1 R1] & P1).
  destruct (H2 x s1 y s' I1 (conj (ST _ _ R1 Hp) P1) E2) as (T2 & P2).
  split; [|exact P2]. eapply to_trans; [|exact T2]. split; assumption.
Qed.
Lemma trip_ret {X} (Pre : S -> Prop) (x : X) (P : S -> X -> Prop) : (forall s, Pre s -> P s x) -> trip Pre (mret x) P.
Proof. intros H s y s' Hi Hp E. apply ret_ok in E as [-> ->]. split; [now apply to_refl|auto]. Qed.
Lemma trip_panic {X} (Pre : S -> Prop) e (P : S -> X -> Prop) : trip Pre (mpanic e) P.
Proof. intros s y s' Hi Hp E. discriminate E. Qed.
Lemma trip_lift {X} (Pre : S -> Prop) (r : lres X) : trip Pre (mlift r) (fun _ x => r = LOk x).
Proof.
  intros s y s' Hi Hp E. destruct r; cbn [mlift] in E; [|discriminate E]. apply ret_ok in E as [-> ->].
  split; [now apply to_refl|reflexivity].
Qed.
Lemma trip_pre {X} (Pre Pre' : S -> Prop) (m : M X) P : (forall s, Pre s -> Pre' s) -> trip Pre' m P -> trip Pre m P.
Proof. intros H T s x s' Hi Hp E. eapply T; eauto. Qed.
Lemma trip_post {X} (Pre : S -> Prop) (m : M X) (P P' : S -> X -> Prop) :
  (forall s x, P s x -> P' s x) -> trip Pre m P -> trip Pre m P'.
Proof. intros H T s x s' Hi Hp E. destruct (T _ _ _ Hi Hp E); auto. Qed.

Lemma st_true : stable (fun _ => True). Proof. intros ? ? ? ?; trivial. Qed.
Lemma st_tq t : stable (fun s => tq s t). Proof. intros ? ? ? ?; eapply tq_mono; eauto. Qed.
Lemma st_tql l : stable (fun s => tql s l). Proof. intros ? ? ? ?; eapply tql_mono; eauto. Qed.
Lemma st_q c : stable (fun s => Q s c). Proof. intros ? ? ? ?; eapply (r_mono RU); eauto. Qed.
Lemma st_and P P' : stable P -> stable P' -> stable (fun s => P s /\ P' s).
Proof. intros H1 H2 s s' HR [X Y]; split; eauto. Qed.
Lemma st_prop (P : Prop) : stable (fun _ => P). Proof. intros ? ? ? ?; assumption. Qed.
Ltac st := repeat first [apply st_and|apply st_tq|apply st_tql|apply st_q|apply st_true|apply st_prop].
Ltac bnd := eapply trip_bind; [st| |intros].

(** Leaves of the computation. *)
Lemma t_metrics Pre sym ft dpi m : G m -> trip Pre (be_metrics be sym ft dpi m) (fun _ _ => True).
Proof. intros HG s x s' Hi _ E. split; [|trivial]. eapply (r_metrics RU); eassumption. Qed.
Lemma t_under Pre ft dpi : trip Pre (be_underline be ft dpi) (fun _ _ => True).
Proof. intros s x s' Hi _ E. split; [|trivial]. eapply (r_under RU); eassumption. Qed.
Lemma t_xheight Pre ft dpi : trip Pre (be_xheight be ft dpi) (fun _ _ => True).
Proof. intros s x s' Hi _ E. split; [|trivial]. eapply (r_xheight RU); eassumption. Qed.
Lemma t_char Pre sym st m : G m -> N st -> trip Pre (new_char be sym st m) (fun s c => Q s c).
Proof. intros HG HN s x s' Hi _ E. destruct (r_char RU _ _ _ _ _ _ Hi HG HN E) as (H1 & H2 & H3). repeat split; assumption. Qed.

Lemma t_kerning t next : trip (fun s => tq s t /\ match next with Some n => tq s n | None => True end)
  (kerning be t next) (fun _ _ => True).
Proof.
  unfold kerning. destruct t; try (apply trip_ret; intros; trivial).
  - eapply (trip_bind _ _ (fun _ _ => True)); [|  |intros; apply trip_ret; trivial].
    + apply st_and; [apply st_tq|]. destruct next; [apply st_tq|apply st_true].
    + destruct next as [[]|]; try (apply trip_ret; intros; trivial).
      * intros s x s' Hi [H1 H2] E. split; [|trivial]. eapply (r_kern RU); [exact Hi|exact H1|exact H2|exact E].
      * intros s x s' Hi [H1 H2] E. destruct H2.
  - intros s x s' Hi [[] _].
Qed.
Lemma t_kern_list l : trip (fun s => tql s l) (kern_list be l) (fun s r => tql s r).
Proof.
  induction l as [|x l IH]; cbn [kern_list].
  - apply trip_ret. trivial.
  - eapply trip_bind; [st| |intros d].
    + eapply trip_pre; [|apply t_kerning]. cbn [tql fold_right]. intros s [H1 H2]. split; [assumption|].
      destruct l; cbn [hd_error]; [trivial|]. apply H2.
    + bnd.
      * eapply trip_pre; [|exact IH]. cbn. tauto.
      * apply trip_ret. intros s (([H1 H2] & _) & H3). destruct (negb _); cbn; auto.
Qed.
Lemma t_hlist l k : trip (fun s => tql s l) (hlist_of be l k) tq.
Proof.
  unfold hlist_of. eapply (trip_bind _ _ (fun s r => tql s r)); [st| |intros r].
  - destruct k; [apply t_kern_list|apply trip_ret; auto].
  - apply trip_ret. intros s [_ H]. exact H.
Qed.
Lemma tq_vpack s h ad lim t t' : tq s t -> vpack h ad lim t = LOk t' -> tq s t'.
Proof.
  destruct t; cbn [vpack]; try (intros H E; injection E as <-; exact H).
  destruct (vfold l dims0); intros H E; [|discriminate E]. injection E as <-. exact H.
Qed.
Lemma tq_shift s t sh : tq s t -> tq s (set_shift sh t).
Proof. destruct t; intros H; exact H. Qed.
Lemma tq_hpack s t w ad : tq s t -> tq s (hpack w ad t).
Proof. destruct t; intros H; exact H. Qed.
Lemma t_vlist l : trip (fun s => tql s l) (vlist_of l) tq.
Proof.
  unfold vlist_of. destruct (vpack _ _ _ _) as [t|e] eqn:E; [|apply trip_panic].
  apply trip_ret. intros s H. eapply tq_vpack; [|exact E]. exact H.
Qed.
Lemma t_hcentered t : trip (fun s => tq s t) (hcentered be [t]) tq.
Proof. unfold hcentered. eapply trip_pre; [|apply t_hlist]. intros s H. cbn. auto. Qed.
Lemma t_hrule Pre st th : stable Pre -> trip Pre (hrule be st th) tq.
Proof.
  intros SP. unfold hrule. eapply (trip_bind _ _ (fun _ _ => True)); [exact SP| |intros; apply trip_ret; intros; exact Logic.I].
  destruct (fltb A th f0); [apply t_under|apply trip_ret; trivial].
Qed.
Lemma t_space Pre st p : stable Pre -> trip Pre (make_space be st p) tq.
Proof.
  intros SP. unfold make_space. eapply trip_bind; [exact SP|apply t_metrics, (r_true RU)|].
  intros. apply trip_ret. intros; exact Logic.I.
Qed.

Lemma t_mmap (f : tnode -> M tnode) l : (forall x, In x l -> trip (fun s => tq s x) (f x) tq) ->
  trip (fun s => tql s l) (mmap f l) (fun s r => tql s r).
Proof.
  intros H. induction l as [|x l IH]; cbn [mmap]; [apply trip_ret; trivial|].
  bnd.
  - eapply trip_pre; [|apply H; now left]. cbn. tauto.
  - bnd.
    + eapply trip_pre; [|apply IH; intros; apply H; now right]. cbn. tauto.
    + apply trip_ret. intros s (([H1 H2] & H3) & H4). cbn. auto.
Qed.
Lemma t_shrink t : trip (fun s => tq s t) (shrink be t) tq.
Proof.
  induction t using tnode_ind'; cbn [shrink]; try (apply trip_ret; intros; exact Logic.I).
  - apply trip_ret. intros s H. apply (r_shrink RU). exact H.
  - intros s x s' Hi [].
  - eapply (trip_bind _ _ (fun s r => tql s r)).
    + apply st_tql.
    + apply t_mmap. rewrite Forall_forall in H. exact H.
    + intros r. apply trip_ret. intros s [_ X]. destruct (_ <? _); exact X.
Qed.

Lemma t_auto Pre c h d st f : stable Pre -> N st -> trip Pre (auto_height_char be c h d st f) tq.
Proof.
  intros SP HN. unfold auto_height_char.
  eapply trip_bind; [exact SP|apply t_xheight|intros xh].
  eapply trip_bind; [apply st_and; [exact SP|st]|apply t_char; [apply (r_true RU)|exact HN]|intros ch].
  eapply (trip_bind _ _ (fun s cs => Q s (fst cs))).
  - apply st_and; [apply st_and; [exact SP|st]|st].
  - destruct (negb _).
    + eapply trip_bind; [apply st_and; [apply st_and; [exact SP|st]|st]| |intros ch'; apply trip_ret; intros s [_ H]; exact H].
      apply t_char; [apply (r_true RU)|apply (r_scale RU); exact HN].
    + apply trip_ret. intros s [_ H]. exact H.
  - intros cs. eapply trip_bind.
    + apply st_and; [apply st_and; [apply st_and; [exact SP|st]|st]|st].
    + eapply trip_pre; [|apply t_hlist]. intros s [_ H]. cbn. auto.
    + intros t. apply trip_ret. intros s [_ H]. now apply tq_shift.
Qed.

Lemma t_new_chars Pre txt st m : stable Pre -> G m -> N st -> trip Pre (new_chars be txt st m) (fun s r => tql s r).
Proof.
  intros SP HG HN. unfold new_chars. induction (rune_strings txt) as [|x l IH]; cbn [mmap]; [apply trip_ret; intros; exact Logic.I|].
  eapply (trip_bind _ _ tq); [exact SP| |intros y].
  - eapply trip_bind; [exact SP|apply t_char; assumption|]. intros c. apply trip_ret. intros s [_ H]. exact H.
  - eapply trip_bind; [apply st_and; [exact SP|st]| |intros r].
    + eapply trip_pre; [|exact IH]. tauto.
    + apply trip_ret. intros s ((_ & H1) & H2). cbn. auto.
Qed.

Lemma t_symbol Pre sym pos st m : stable Pre -> G m -> N st -> trip Pre (handle_symbol range be expr sym pos st m) tq.
Proof.
  intros SP HG HN. unfold handle_symbol.
  eapply trip_bind; [exact SP|apply t_char; assumption|intros ch].
  assert (SP1 : stable (fun s => Pre s /\ Q s ch)) by (apply st_and; [exact SP|st]).
  destruct (is_spaced range sym).
  - eapply trip_bind; [exact SP1|apply trip_lift|intros bf].
    assert (SP2 : stable (fun s => (Pre s /\ Q s ch) /\ obool_lres "slice bounds out of range" (slice expr 0 pos) = LOk bf))
      by (apply st_and; [exact SP1|st]).
    destruct (_ && _); [apply trip_ret; intros s [[_ H] _]; exact H|].
    eapply trip_bind; [exact SP2|apply t_space; exact SP2|intros k1].
    eapply trip_bind; [apply st_and; [exact SP2|st]|apply t_space; apply st_and; [exact SP2|st]|intros k2].
    eapply trip_pre; [|apply t_hlist]. intros s H. cbn. tauto.
  - destruct (set_has _ sym); [|apply trip_ret; intros s [_ H]; exact H].
    destruct (String.eqb sym "."); [|apply trip_panic].
    eapply trip_bind; [exact SP1|apply trip_lift|intros af].
    assert (SP2 : stable (fun s => (Pre s /\ Q s ch) /\ obool_lres "slice bounds out of range" (slice expr pos (zlen expr)) = LOk af))
      by (apply st_and; [exact SP1|st]).
    destruct (_ && _); [apply trip_ret; intros s [[_ H] _]; exact H|].
    eapply trip_bind; [exact SP2|apply t_space; exact SP2|intros k1].
    eapply trip_pre; [|apply t_hlist]. intros s H. cbn. tauto.
Qed.
Lemma t_hspace Pre name st : stable Pre -> trip Pre (handle_space be name st) tq.
Proof. intros. unfold handle_space. destruct (assoc name space_width) as [[]|]; [now apply t_space|apply trip_panic]. Qed.
Lemma t_custom Pre args st : stable Pre -> trip Pre (handle_custom_space be parse_float args st) tq.
Proof.
  intros SP. unfold handle_custom_space. destruct args as [|[| | |a [|[| | | | | | | |q v| | |] l] b| | | | | | | |] args]; try apply trip_panic.
  destruct (parse_float v); [now apply t_space|apply trip_panic].
Qed.
Lemma t_function Pre name st m : stable Pre -> G m -> N st -> trip Pre (handle_function be name st m) tq.
Proof.
  intros SP HG HN. unfold handle_function.
  eapply trip_bind; [exact SP|apply t_new_chars; [exact SP|exact HG|apply (r_type RU); exact HN]|intros r].
  eapply trip_pre; [|apply t_hlist]. tauto.
Qed.

Lemma t_delim ld mid rd st : N st -> trip (fun s => tq s mid) (auto_sized_delimiter be ld mid rd st) tq.
Proof.
  intros HN. unfold auto_sized_delimiter.
  assert (D : forall Pre, stable Pre -> forall d h dp,
    trip Pre (if negb (String.eqb d ".") then mbind (auto_height_char be d h dp st (@f0 A)) (fun ahc => mret [ahc]) else mret [])
      (fun s l => tql s l)).
  { intros Pre SP d h dp. destruct (negb _); [|apply trip_ret; intros; exact Logic.I].
    eapply trip_bind; [exact SP|apply t_auto; [exact SP|exact HN]|]. intros t. apply trip_ret. intros s [_ H]. cbn. auto. }
  eapply trip_bind; [st|apply D; st|intros l].
  eapply trip_bind; [st|apply D; st|intros r].
  eapply trip_pre; [|apply t_hlist]. cbn. intros s ((H1 & H2) & H3). apply tql_app. split; [assumption|]. cbn. auto.
Qed.

Lemma t_genfrac ld rd rule sty num den st : N st ->
  trip (fun s => tq s num /\ tq s den) (genfrac be ld rd rule sty num den st) tq.
Proof.
  intros HN. unfold genfrac.
  assert (SH : forall Pre x, stable Pre -> (forall s, Pre s -> tq s x) ->
    trip Pre (match sty with DisplayStyle => mret x | TextStyle => shrink be x end) tq).
  { intros Pre x SP H. destruct sty; [apply trip_ret; exact H|]. eapply trip_pre; [exact H|apply t_shrink]. }
  eapply trip_bind; [st|apply t_under|intros th].
  eapply trip_bind; [st|apply SH; [st|tauto]|intros n].
  eapply trip_bind; [st|apply SH; [st|tauto]|intros d].
  eapply trip_bind; [st|eapply trip_pre; [|apply t_hcentered]; tauto|intros cn].
  eapply trip_bind; [st|eapply trip_pre; [|apply t_hcentered]; tauto|intros cd].
  eapply trip_bind; [st|apply t_hrule; st|intros bar].
  eapply trip_bind; [st| |intros vl].
  { eapply trip_pre; [|apply t_vlist]. intros s H. cbn [tql fold_right].
    split; [apply tq_hpack; tauto|]. split; [exact Logic.I|]. split; [tauto|]. split; [exact Logic.I|].
    split; [apply tq_hpack; tauto|trivial]. }
  eapply trip_bind; [st|apply t_metrics, (r_true RU)|intros m].
  eapply trip_bind; [st| |intros bx].
  { eapply trip_pre; [|apply t_hlist]. intros s H. cbn [tql fold_right].
    split; [apply tq_shift; tauto|]. split; [exact Logic.I|trivial]. }
  destruct (_ || _).
  - eapply trip_pre; [|apply t_delim; exact HN]. tauto.
  - apply trip_ret. tauto.
Qed.

Lemma t_vpacked (Pre : S -> Prop) h ad lim t : (forall s, Pre s -> tq s t) -> trip Pre (mlift (vpack h ad lim t)) tq.
Proof.
  intros H. destruct (vpack h ad lim t) as [t'|] eqn:E; cbn [mlift]; [|apply trip_panic].
  apply trip_ret. intros s Hp. eapply tq_vpack; [|exact E]. auto.
Qed.

Lemma t_sqrt root body st : N st ->
  trip (fun s => match root with Some r => tq s r | None => True end /\ tq s body) (sqrt_box be root body st) tq.
Proof.
  intros HN. unfold sqrt_box.
  assert (SR : stable (fun s => match root with Some r => tq s r | None => True end)) by (destruct root; st).
  assert (SP : stable (fun s => match root with Some r => tq s r | None => True end /\ tq s body)) by (apply st_and; [exact SR|st]).
  Ltac stp SP := repeat first [exact SP|apply st_and|apply st_tq|apply st_tql|apply st_q|apply st_true|apply st_prop].
  eapply trip_bind; [stp SP|apply t_under|intros th].
  eapply trip_bind; [stp SP|apply t_auto; [stp SP|exact HN]|intros ck].
  eapply trip_bind; [stp SP| |intros pd].
  { eapply trip_pre; [|apply t_hlist]. intros s H. cbn. tauto. }
  eapply trip_bind; [stp SP|apply t_hrule; stp SP|intros bar].
  eapply trip_bind; [stp SP| |intros rh].
  { eapply trip_pre; [|apply t_vlist]. intros s H. cbn [tql fold_right].
    split; [tauto|]. split; [exact Logic.I|]. split; [tauto|trivial]. }
  eapply trip_bind; [stp SP|apply t_vpacked; tauto|intros rh'].
  eapply (trip_bind _ _ tq); [stp SP| |intros rt].
  { destruct root as [r|]; [|apply trip_ret; intros; exact Logic.I].
    eapply trip_bind; [stp SP|eapply trip_pre; [|apply t_shrink]; tauto|intros r1].
    eapply trip_pre; [|apply t_shrink]; tauto. }
  eapply trip_bind; [stp SP| |intros inn].
  { eapply trip_pre; [|apply t_hlist]. intros s H. cbn. tauto. }
  eapply trip_bind; [stp SP| |intros vl].
  { eapply trip_pre; [|apply t_vlist]. intros s H. cbn. tauto. }
  eapply trip_pre; [|apply t_hlist]. intros s H. cbn [tql fold_right].
  split; [apply tq_shift; tauto|]. split; [exact Logic.I|]. tauto.
Qed.

Lemma t_overline body st : N st -> trip (fun s => tq s body) (overline_box be body st) tq.
Proof.
  intros HN. unfold overline_box.
  eapply trip_bind; [st|apply t_under|intros th].
  eapply trip_bind; [st|apply t_hrule; st|intros bar].
  eapply trip_bind; [st| |intros inn].
  { eapply trip_pre; [|apply t_hlist]. intros s H. cbn. tauto. }
  eapply trip_bind; [st| |intros rh].
  { eapply trip_pre; [|apply t_vlist]. intros s H. cbn [tql fold_right].
    split; [tauto|]. split; [exact Logic.I|]. split; [tauto|trivial]. }
  eapply trip_bind; [st|apply t_vpacked; tauto|intros rh'].
  eapply trip_pre; [|apply t_hlist]. intros s H. cbn. tauto.
Qed.

(** The visitor. *)
Definition vq (s : S) (v : visitor) : Prop := tql s (v_nodes v) /\ N (v_state v).
Definition vtrip (f : visitor -> M visitor) (v : visitor) : Prop :=
  N (v_state v) -> trip (fun s => tql s (v_nodes v)) (f v) (fun s v' => vq s v' /\ v_math v' = v_math v).

Lemma vt_mfold {X} (f : X -> visitor -> M visitor) m l :
  (forall x v, In x l -> v_math v = m -> vtrip (f x) v) -> forall v, v_math v = m -> vtrip (mfold f l) v.
Proof.
  intros H. induction l as [|x l IH]; intros v EM HN; cbn [mfold].
  - apply trip_ret. intros s HQ. repeat split; assumption.
  - eapply trip_bind; [st|apply H; [now left|exact EM|exact HN]|intros v'].
    intros s y s' Hi (_ & (HQ & HN') & EM') E.
    destruct (IH (fun x v I => H x v (or_intror I)) v' (eq_trans EM' EM) HN' s y s' Hi HQ E) as (T & P1 & P2).
    split; [exact T|]. split; [exact P1|]. congruence.
Qed.
Lemma vt_push (k : M tnode) v : trip (fun s => tql s (v_nodes v)) k tq ->
  vtrip (fun v => mbind k (fun t => mret (push t v))) v.
Proof.
  intros H HN. eapply trip_bind; [st|exact H|]. intros t. apply trip_ret. intros s [H1 H2].
  split; [|reflexivity]. split; [|exact HN]. apply tql_app. split; [exact H1|]. cbn. auto.
Qed.

Lemma t_list w l st m Pre : stable Pre -> N st -> (forall x v, In x l -> v_math v = m -> vtrip (go w x) v) ->
  trip Pre (handle_list be (go w) l st m) tq.
Proof.
  intros SP HN H. unfold handle_list. eapply trip_bind; [exact SP| |intros v].
  - eapply trip_pre; [|apply (vt_mfold (go w) m l H (mk_visitor [] st m) eq_refl HN)]. intros; exact Logic.I.
  - eapply trip_pre; [|apply t_hlist]. intros s (_ & (HQ & _) & _). exact HQ.
Qed.

Definition is_math (n : node) : bool := match n with NMath _ _ _ _ => true | _ => false end.
Definition vgo (n : node) : Prop := forall w v, (G (v_math v) \/ is_math n = true) -> vtrip (go w n) v.


Lemma vgo_both n : vgo n /\ Forall vgo (list_children n).
Proof.
  assert (FC : forall l, Forall (fun n => vgo n /\ Forall vgo (list_children n)) l -> Forall vgo l).
  { intros l H. eapply Forall_impl; [|exact H]. cbn. tauto. }
  assert (BAD : forall n0, (forall w v s, exists e, go w n0 v s = LPanic e) -> vgo n0).
  { intros n0 H w v _ HN s x s' _ _ E. destruct (H w v s) as (e & E2). rewrite E2 in E. discriminate E. }
  induction n using node_ind'; cbn [list_children]; split; auto; try (apply Forall_nil);
    try (apply BAD; intros [] v s0; eexists; reflexivity).
  - intros [] v HG HN; cbn [Mtex.go].
    + apply trip_panic.
    + apply trip_ret. intros s HQ. repeat split; assumption.
  - intros w v HG HN. destruct HG as [HG|HG]; [|discriminate HG]. destruct w; cbn [Mtex.go].
    + apply (vt_mfold (go true) (v_math v)); [|reflexivity|exact HN]. intros x v' I' EM. apply FC in H. rewrite Forall_forall in H.
      apply H; [exact I'|]. rewrite EM. auto.
    + apply trip_ret. intros s HQ. repeat split; assumption.
  - destruct nm as [[p name]|]; [|apply BAD; intros w v s; eexists; reflexivity].
    intros w v HG HN. destruct HG as [HG|HG]; [|discriminate HG]. cbn [Mtex.go].
    eapply trip_bind; [st|apply trip_lift|intros h]. destruct h as [h|]; [|apply trip_panic].
    eapply trip_pre; [intros s [HQ _]; exact HQ|].
    apply (vt_push (handle_macro range be parse_float expr (go true) h p name l (v_state v) (v_math v)) v); [|exact HN].
    set (st := v_state v) in *. set (m := v_math v) in *.
    set (Pre := fun s => tql s (v_nodes v)). assert (SP : stable Pre) by (unfold Pre; st).
    assert (L : forall z, In z l -> forall Pre', stable Pre' -> trip Pre' (handle_list be (go true) (list_children z) st m) tq).
    { intros z I' Pre' SP'. apply t_list; [exact SP'|exact HN|]. intros x v' Ix EM. rewrite Forall_forall in H.
      destruct (H z I') as [_ GG]. rewrite Forall_forall in GG. apply GG; [exact Ix|]. left. rewrite EM. exact HG. }
    assert (FR2 : forall Pre' ld rd rule sty, stable Pre' -> trip Pre' (handle_frac_args be (go true) ld rd rule sty l st m) tq).
    { intros Pre' ld rd rule sty SP'. unfold handle_frac_args.
      destruct l as [|[| | |a l1 b| | | | | | | |] [|[| | |a2 l2 b2| | | | | | | |] l]]; try apply trip_panic.
      eapply trip_bind; [exact SP'|apply (L _ (or_introl eq_refl)); exact SP'|intros num].
      eapply trip_bind; [apply st_and; [exact SP'|st]|apply (L _ (or_intror (or_introl eq_refl))); apply st_and; [exact SP'|st]|intros den].
      eapply trip_pre; [|apply t_genfrac; exact HN]. tauto. }
    destruct h; cbn [Mtex.handle_macro].
    + now apply t_hspace.
    + now apply t_symbol.
    + now apply t_custom.
    + now apply t_function.
    + unfold handle_frac. eapply trip_bind; [exact SP|apply t_under|intros; apply FR2; apply st_and; [exact SP|st]].
    + unfold handle_frac. eapply trip_bind; [exact SP|apply t_under|intros; apply FR2; apply st_and; [exact SP|st]].
    + unfold handle_frac. eapply trip_bind; [exact SP|apply t_under|intros; apply FR2; apply st_and; [exact SP|st]].
    + now apply FR2.
    + unfold handle_sqrt.
      destruct l as [|x1 [|x2 [|x3 l]]]; try apply trip_panic.
      * destruct x1; try apply trip_panic.
        eapply trip_bind; [exact SP|apply (L _ (or_introl eq_refl)); exact SP|intros body].
        eapply trip_pre; [|apply (t_sqrt None); exact HN]. tauto.
      * destruct x1; try apply trip_panic.
        destruct x2; try (eapply trip_bind; [exact SP|apply (L _ (or_introl eq_refl)); exact SP|intros; apply trip_panic]).
        eapply trip_bind; [exact SP|apply (L _ (or_introl eq_refl)); exact SP|intros root].
        eapply trip_bind; [apply st_and; [exact SP|st]|apply (L _ (or_intror (or_introl eq_refl))); apply st_and; [exact SP|st]|intros body].
        eapply trip_pre; [|apply (t_sqrt (Some root)); exact HN]. tauto.
      * destruct x1, x2; apply trip_panic.
    + unfold handle_overline. destruct l as [|x1 l]; try apply trip_panic. destruct x1; try apply trip_panic.
      eapply trip_bind; [exact SP|apply (L _ (or_introl eq_refl)); exact SP|intros body].
      eapply trip_pre; [|apply t_overline; exact HN]. tauto.
  - intros w v _ HN. cbn [Mtex.go].
    eapply (trip_bind _ _ (fun s v' => vq s v')); [st| |intros v'].
    + assert (K : forall x v', In x l -> v_math v' = true -> vtrip (go false x) v').
      { intros x v' I' EM. apply FC in H. rewrite Forall_forall in H. apply H; [exact I'|]. left. rewrite EM. apply (r_true RU). }
      eapply trip_post; [|exact (vt_mfold (go false) true l K (mk_visitor (v_nodes v) (set_type "it" (v_state v)) true) eq_refl (r_type RU _ _ HN))].
      intros s x X; apply X.
    + apply trip_ret. intros s (_ & H1 & H2). split; [|reflexivity]. split; [exact H1|]. apply (r_type RU). exact H2.
  - intros w v HG HN. destruct HG as [HG|HG]; [|discriminate HG]. cbn [Mtex.go].
    eapply trip_bind; [st|apply t_new_chars; [st|exact HG|exact HN]|intros ts].
    eapply (trip_bind _ _ tq); [st|eapply trip_pre; [|apply t_hlist]; tauto|intros t].
    apply trip_ret. intros s1 ((H1 & _) & H2). split; [|reflexivity]. split; [|exact HN].
    apply tql_app. split; [exact H1|]. cbn. auto.
  - intros w v HG HN. destruct HG as [HG|HG]; [|discriminate HG].
    apply (vt_mfold (fun x v => mbind (handle_symbol range be expr x 0 (v_state v) (v_math v)) (fun t => mret (push t v))) (v_math v));
      [|reflexivity|exact HN].
    intros x v' _ EM HN'. apply (vt_push (handle_symbol range be expr x 0 (v_state v') (v_math v')) v'); [|exact HN'].
    apply t_symbol; [st|rewrite EM; exact HG|exact HN'].
  - intros w v HG HN. destruct HG as [HG|HG]; [|discriminate HG]. cbn [Mtex.go]. destruct (v_math v) eqn:EM.
    + eapply trip_bind; [st|apply trip_lift|intros h]. destruct h as [h|]; [|apply trip_panic].
      eapply trip_pre; [intros s0 [HQ _]; exact HQ|]. rewrite <- EM.
      apply (vt_push (handle_sym range be expr h p s (v_state v) (v_math v)) v); [|exact HN].
      destruct h; cbn [handle_sym]; try apply trip_panic; [apply t_hspace; st|apply t_symbol; [st|rewrite EM; exact HG|exact HN]].
    + eapply trip_bind; [st|apply t_char; [exact HG|exact HN]|intros c]. apply trip_ret.
      intros s1 [H1 H2]. split; [|exact EM]. split; [|exact HN]. apply tql_app. split; [exact H1|]. cbn. auto.
Qed.

(** The whole expression. *)
Theorem typeset_hoare l size dpi s t s' :
  (G false \/ Forall (fun n => is_math n = true) l) -> N (mk_state (mk_font "default" "rm" size) dpi) -> I s ->
  typeset range be parse_float expr l size dpi s = LOk (t, s') -> I s' /\ R s s' /\ tq s' t.
Proof.
  intros HG HN Hi E. unfold typeset in E.
  assert (T : trip (fun _ => True) (typeset range be parse_float expr l size dpi) tq).
  { unfold typeset. eapply (trip_bind _ _ (fun s v => tql s (v_nodes v))); [st| |intros v; eapply trip_pre; [|apply t_hlist]; tauto].
    cbn [Mtex.go].
    assert (K : forall x v, In x l -> v_math v = false -> vtrip (go true x) v).
    { intros x v I' EM. apply vgo_both. rewrite EM. destruct HG as [HG|HG]; [now left|right]. rewrite Forall_forall in HG. auto. }
    eapply trip_pre; [|eapply trip_post; [|exact (vt_mfold (go true) false l K (mk_visitor [] _ false) eq_refl HN)]].
    - intros; exact Logic.I.
    - intros s0 x ((X & _) & _). exact X. }
  destruct (T s t s' Hi Logic.I E) as ((H1 & H2) & H3). auto.
Qed.

End Hoare.
