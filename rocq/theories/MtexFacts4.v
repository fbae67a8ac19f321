(** More facts about mtex: Walk, constructed boxes, fractions, spacing. *)
From Coq Require Import ZArith String Ascii List Bool Lia.
From Verif Require Import Utf8 Utf8Facts Token Ast MacroTable SymTable SetTable MtexTable Parser Grammar Stream Symbols
  PropSymbols TreeSpec Arith Box Ship ShipSpec ShipFacts ShipFacts2 Mtex MtexSpec MtexFacts MtexFacts2.
Import ListNotations.
Local Open Scope string_scope.
Local Open Scope list_scope.
Local Open Scope Z_scope.

Section Go.
Context {A : arith} {S : Type}.
Variable range : Symbols.gset -> list string.
Variable be : @backend A S.
Variable parse_float : string -> option (Arith.F A).
Variable expr : string.
Notation tnode := (@Box.tnode A).
Notation state := (@Box.state A).
Notation visitor := (@visitor A).
Notation go := (go range be parse_float expr).
Notation M := (@M S).

(** ** [go true] is ast.Walk of the visitor whose Visit is [go false] *)
Definition visit (_ : unit) (n : node) (vs : visitor * S) : option (option unit * (visitor * S)) :=
  match go false n (fst vs) (snd vs) with
  | LPanic _ => None
  | LOk vs' => Some (match n with NMath _ _ _ _ | NMacro _ _ => None | _ => Some tt end, vs')
  end.

Lemma walk_is_go n : forall v s,
  walk unit (visitor * S) visit tt n (v, s) = match go true n v s with LOk vs => Some vs | LPanic _ => None end.
Proof.
  induction n using node_ind'; intros v s0.
  - reflexivity.
  - cbn [walk]. unfold visit at 1. cbn [Mtex.go fst snd]. unfold mret.
    assert (L : forall v s0,
      (fix walk_list (l0 : list node) (s1 : visitor * S) {struct l0} : option (visitor * S) :=
         match l0 with [] => Some s1 | x :: l' => obind (walk unit (visitor * S) visit tt x s1) (walk_list l') end) l (v, s0) =
      match mfold (go true) l v s0 with LOk vs => Some vs | LPanic _ => None end).
    { clear v s0. induction H as [|x l Hx _ IH]; intros v s0; [reflexivity|].
      cbn [mfold]. unfold mbind. rewrite Hx. destruct (go true x v s0) as [[v1 s1]|e]; [|reflexivity].
      cbn [obind]. apply IH. }
    rewrite L. destruct (mfold (go true) l v s0) as [[v1 s1]|e]; reflexivity.
  - cbn [walk]. unfold visit at 1. cbn [fst snd].
    change (go true (NMacro nm l) v s0) with (go false (NMacro nm l) v s0).
    destruct (go false (NMacro nm l) v s0) as [[v1 s1]|e]; reflexivity.
  - reflexivity.
  - reflexivity.
  - reflexivity.
  - cbn [walk]. unfold visit at 1. cbn [fst snd].
    change (go true (NMath d a l b) v s0) with (go false (NMath d a l b) v s0).
    destruct (go false (NMath d a l b) v s0) as [[v1 s1]|e]; reflexivity.
  - cbn [walk]. unfold visit at 1. cbn [fst snd].
    change (go true (NWord p s) v s0) with (go false (NWord p s) v s0).
    destruct (go false (NWord p s) v s0) as [[v1 s1]|e]; reflexivity.
  - cbn [walk]. unfold visit at 1. cbn [fst snd].
    change (go true (NLit p s) v s0) with (go false (NLit p s) v s0).
    destruct (go false (NLit p s) v s0) as [[v1 s1]|e]; reflexivity.
  - cbn [walk]. unfold visit at 1. cbn [fst snd].
    change (go true (NSym p s) v s0) with (go false (NSym p s) v s0).
    destruct (go false (NSym p s) v s0) as [[v1 s1]|e]; reflexivity.
  - reflexivity.
  - reflexivity.
Qed.

(** ** Everything mtex makes is built by the constructors of package tex *)
Notation built := (built be).
Definition makes (m : M tnode) : Prop := forall s t s', m s = LOk (t, s') -> built t.

Lemma makes_bind {X} (m : M X) (k : X -> M tnode) :
  (forall x s s', m s = LOk (x, s') -> makes (k x)) -> makes (mbind m k).
Proof. intros H s t s' E. apply bind_ok in E as (x & s1 & E1 & E2). eapply H; eassumption. Qed.
Lemma makes_ret t : built t -> makes (mret t).
Proof. intros B s t' s' E. apply ret_ok in E as [-> _]. assumption. Qed.
Lemma makes_panic e : makes (mpanic e).
Proof. intros s t s' E. discriminate E. Qed.
Lemma makes_hlist l k : Forall built l -> makes (hlist_of be l k).
Proof. intros B s t s' E. eapply b_hlist; [|exact E]. now apply Forall_forall. Qed.

Lemma makes_space st p : makes (make_space be st p).
Proof. unfold make_space. apply makes_bind. intros. apply makes_ret. constructor. Qed.

Lemma makes_symbol sym pos st m : makes (handle_symbol range be expr sym pos st m).
Proof.
  unfold handle_symbol. apply makes_bind. intros ch s s' E.
  assert (B : built (TChar ch)) by (eapply b_char; exact E).
  destruct (is_spaced range sym).
  - apply makes_bind. intros bf s1 s1' _. destruct (_ && _); [now apply makes_ret|].
    apply makes_bind. intros k1 s2 s2' E1. apply makes_space in E1.
    apply makes_bind. intros k2 s3 s3' E2. apply makes_space in E2.
    apply makes_hlist. repeat constructor; assumption.
  - destruct (set_has _ sym); [|now apply makes_ret]. destruct (String.eqb sym "."); [|apply makes_panic].
    apply makes_bind. intros af s1 s1' _. destruct (_ && _); [now apply makes_ret|].
    apply makes_bind. intros k1 s2 s2' E1. apply makes_space in E1.
    apply makes_hlist. repeat constructor; assumption.
Qed.

Lemma makes_handle_space name st : makes (handle_space be name st).
Proof. unfold handle_space. destruct (assoc name space_width) as [[]|]; [apply makes_space|apply makes_panic]. Qed.
Lemma makes_custom args st : makes (handle_custom_space be parse_float args st).
Proof.
  unfold handle_custom_space. destruct args as [|[| | |a [|[| | | | | | | |q v| | |] l] b| | | | | | | |] args]; try apply makes_panic.
  destruct (parse_float v); [apply makes_space|apply makes_panic].
Qed.
Lemma mmap_all {X} (f : X -> M tnode) l : (forall x, makes (f x)) ->
  forall s ts s', mmap f l s = LOk (ts, s') -> Forall built ts.
Proof.
  intros H. induction l as [|x l IH]; intros s ts s' E; cbn [mmap] in E.
  - apply ret_ok in E as [-> _]. constructor.
  - apply bind_ok in E as (y & s1 & E1 & E). apply bind_ok in E as (r & s2 & E2 & E). apply ret_ok in E as [-> _].
    constructor; [eapply H; eassumption|eauto].
Qed.
Lemma chars_built t st m s ts s' : new_chars be t st m s = LOk (ts, s') -> Forall built ts.
Proof.
  apply mmap_all. intros x. apply makes_bind. intros c s1 s2 E. apply makes_ret. eapply b_char; exact E.
Qed.
Lemma makes_function name st m : makes (handle_function be name st m).
Proof. unfold handle_function. apply makes_bind. intros ts s s' E. apply makes_hlist. eapply chars_built; exact E. Qed.

Lemma glue_fill_built : built glue_fill.
Proof. apply (b_glue be "fill"). reflexivity. Qed.
Lemma hbox_built w : built (hbox w). Proof. constructor. Qed.

Lemma makes_delim ld mid rd st : built mid -> makes (auto_sized_delimiter be ld mid rd st).
Proof.
  intros B. unfold auto_sized_delimiter.
  assert (D : forall d h dp s l s',
    (if negb (String.eqb d ".") then mbind (auto_height_char be d h dp st (@f0 A)) (fun ahc => mret [ahc]) else mret []) s
      = LOk (l, s') -> Forall built l).
  { intros d h dp s l s' E. destruct (negb _).
    - apply bind_ok in E as (t & s1 & E1 & E). apply ret_ok in E as [-> _]. constructor; [|constructor].
      eapply b_auto; exact E1.
    - apply ret_ok in E as [-> _]. constructor. }
  apply makes_bind. intros l s1 s1' E1. apply D in E1.
  apply makes_bind. intros r s2 s2' E2. apply D in E2.
  apply makes_hlist. apply Forall_app. split; [assumption|]. constructor; assumption.
Qed.

Lemma shrink_built t : built t -> makes (shrink be t).
Proof. intros B s t' s' E. eapply b_shrink; eassumption. Qed.

Lemma makes_genfrac ld rd rule sty num den st : built num -> built den -> makes (genfrac be ld rd rule sty num den st).
Proof.
  intros Bn Bd. unfold genfrac. apply makes_bind. intros th s0 s0' _.
  assert (SH : forall x, built x -> forall s y s', match sty with DisplayStyle => mret x | TextStyle => shrink be x end s = LOk (y, s') -> built y).
  { intros x Bx s y s' E. destruct sty; [apply ret_ok in E as [-> _]; assumption|]. eapply shrink_built; eassumption. }
  apply makes_bind. intros n s1 s1' E1. apply SH in E1; [|assumption].
  apply makes_bind. intros d s2 s2' E2. apply SH in E2; [|assumption].
  apply makes_bind. intros cn s3 s3' E3.
  assert (Bcn : built cn) by (eapply b_hcentered; [|exact E3]; intros y [<-|[]]; assumption).
  unfold hcentered in E3. apply hlist_of_shape in E3 as (b1 & g1 & l1 & Ecn).
  apply makes_bind. intros cd s4 s4' E4.
  assert (Bcd : built cd) by (eapply b_hcentered; [|exact E4]; intros y [<-|[]]; assumption).
  unfold hcentered in E4. apply hlist_of_shape in E4 as (b2 & g2 & l2 & Ecd).
  apply makes_bind. intros bar s5 s5' E5. assert (Bb : built bar) by (eapply b_hrule; exact E5).
  apply makes_bind. intros vl s6 s6' E6.
  assert (Bv : built vl).
  { eapply b_vlist; [|exact E6]. cbn [In].
    intros y [<-|[<-|[<-|[<-|[<-|[]]]]]]; try assumption; try apply b_vbox; (apply b_hpack; [assumption|subst; eauto]). }
  apply vlist_of_shape in E6 as (b3 & g3 & ->).
  apply makes_bind. intros m s7 s7' _.
  apply makes_bind. intros bx s8 s8' E8.
  assert (Bx : built bx).
  { eapply makes_hlist; [|exact E8]. constructor; [|constructor; [apply hbox_built|constructor]].
    apply b_shift; [assumption|eauto]. }
  destruct (_ || _); [now apply makes_delim|now apply makes_ret].
Qed.

Lemma vpack_shape h ad lim b sh gs l t : vpack (A:=A) h ad lim (TL KVList b sh gs l) = LOk t ->
  exists b' gs', t = TL KVList b' sh gs' l.
Proof. cbn [vpack]. destruct (vfold l dims0); intros E; inv E. eauto. Qed.

Lemma makes_sqrt_box root body st :
  match root with Some r => built r | None => True end -> built body -> makes (sqrt_box be root body st).
Proof.
  intros Br Bb. unfold sqrt_box. apply makes_bind. intros th s0 s0' _.
  apply makes_bind. intros ck s1 s1' E1. assert (Bc : built ck) by (eapply b_auto; exact E1).
  apply makes_bind. intros pd s2 s2' E2.
  assert (Bp : built pd) by (eapply makes_hlist; [|exact E2]; repeat constructor; assumption).
  apply makes_bind. intros bar s3 s3' E3. assert (Br3 : built bar) by (eapply b_hrule; exact E3).
  apply makes_bind. intros rh s4 s4' E4.
  assert (Brh : built rh).
  { eapply b_vlist; [|exact E4]. cbn [In]. intros y [<-|[<-|[<-|[]]]]; try assumption. apply glue_fill_built. }
  apply vlist_of_shape in E4 as (b3 & g3 & ->).
  apply makes_bind. intros rh' s5 s5' E5.
  assert (Brh' : built rh').
  { destruct (vpack _ _ _ _) as [t|e] eqn:EV; cbn [mlift] in E5; [|discriminate E5].
    apply ret_ok in E5 as [-> _]. eapply b_vpack; [exact Brh|eauto|exact EV]. }
  apply makes_bind. intros rt s6 s6' E6.
  assert (Brt : built rt).
  { destruct root as [r|].
    - apply bind_ok in E6 as (r1 & s & E61 & E62). eapply shrink_built; [|exact E62]. eapply shrink_built; [|exact E61]. assumption.
    - apply ret_ok in E6 as [-> _]. apply hbox_built. }
  apply makes_bind. intros inn s7 s7' E7.
  assert (Bi : built inn) by (eapply makes_hlist; [|exact E7]; repeat constructor; assumption).
  apply makes_bind. intros vl s8 s8' E8.
  assert (Bv : built vl) by (eapply b_vlist; [|exact E8]; cbn [In]; intros y [<-|[]]; assumption).
  apply vlist_of_shape in E8 as (b4 & g4 & ->).
  apply makes_hlist. constructor; [apply b_shift; [assumption|eauto]|].
  constructor; [apply b_kern|]. constructor; [assumption|]. constructor; [assumption|constructor].
Qed.

Lemma makes_overline_box body st : built body -> makes (overline_box be body st).
Proof.
  intros Bb. unfold overline_box. apply makes_bind. intros th s0 s0' _.
  apply makes_bind. intros bar s3 s3' E3. assert (Br3 : built bar) by (eapply b_hrule; exact E3).
  apply makes_bind. intros inn s2 s2' E2.
  assert (Bp : built inn) by (eapply makes_hlist; [|exact E2]; repeat constructor; assumption).
  apply makes_bind. intros rh s4 s4' E4.
  assert (Brh : built rh).
  { eapply b_vlist; [|exact E4]. cbn [In]. intros y [<-|[<-|[<-|[]]]]; try assumption. apply glue_fill_built. }
  apply vlist_of_shape in E4 as (b3 & g3 & ->).
  apply makes_bind. intros rh' s5 s5' E5.
  assert (Brh' : built rh').
  { destruct (vpack _ _ _ _) as [t|e] eqn:EV; cbn [mlift] in E5; [|discriminate E5].
    apply ret_ok in E5 as [-> _]. eapply b_vpack; [exact Brh|eauto|exact EV]. }
  apply makes_hlist. repeat constructor; assumption.
Qed.

Definition grows_built (f : visitor -> M visitor) : Prop := forall v s v' s',
  Forall built (v_nodes v) -> f v s = LOk (v', s') -> Forall built (v_nodes v').

Lemma gb_mfold {X} (f : X -> visitor -> M visitor) l : (forall x, In x l -> grows_built (f x)) -> grows_built (mfold f l).
Proof.
  induction l as [|x l IH]; intros H v s v' s' B E; cbn [mfold] in E.
  - apply ret_ok in E as [-> _]. assumption.
  - apply bind_ok in E as (v1 & s1 & E1 & E). eapply IH; [|  |exact E].
    + intros; apply H; now right.
    + eapply (H x (or_introl eq_refl)); eassumption.
Qed.
Lemma gb_push (k : state -> bool -> M tnode) : (forall st m, makes (k st m)) ->
  grows_built (fun v => mbind (k (v_state v) (v_math v)) (fun t => mret (push t v))).
Proof.
  intros H v s v' s' B E. apply bind_ok in E as (t & s1 & E1 & E). apply ret_ok in E as [-> _].
  unfold push. cbn [v_nodes]. apply Forall_app. split; [assumption|]. constructor; [|constructor]. eapply H; exact E1.
Qed.

Lemma makes_list w l st m : (forall x, In x l -> grows_built (go w x)) -> makes (handle_list be (go w) l st m).
Proof.
  intros H. unfold handle_list. apply makes_bind. intros v s s' E. apply makes_hlist.
  eapply (gb_mfold (go w) l H); [|exact E]. constructor.
Qed.

Definition gb (n : node) : Prop := forall w, grows_built (go w n).
Lemma gb_go_both n : gb n /\ Forall gb (list_children n).
Proof.
  assert (FC : forall l, Forall (fun n => gb n /\ Forall gb (list_children n)) l -> Forall gb l).
  { intros l H. eapply Forall_impl; [|exact H]. cbn. tauto. }
  assert (BAD : forall n0, (forall w v s, exists e, go w n0 v s = LPanic e) -> gb n0).
  { intros n0 H w v s v' s' _ E. destruct (H w v s) as (e & E2). rewrite E2 in E. discriminate E. }
  induction n using node_ind'; cbn [list_children]; split; auto; try (apply Forall_nil);
    try (apply BAD; intros [] v s0; eexists; reflexivity).
  - intros [] v s v' s' B E; [discriminate E|]. apply ret_ok in E as [-> _]. assumption.
  - intros [] v s v' s' B E; cbn [Mtex.go] in E.
    + eapply (gb_mfold (go true) l); [|exact B|exact E]. intros x I. apply FC in H. rewrite Forall_forall in H. now apply H.
    + apply ret_ok in E as [-> _]. assumption.
  - destruct nm as [[p name]|]; [|apply BAD; intros w v s; eexists; reflexivity].
    intros w. apply (fun H => H). intros v s v' s' B E. cbn [Mtex.go] in E.
    apply bind_ok in E as (h & s1 & _ & E). destruct h as [h|]; [|discriminate E].
    revert v s1 v' s' B E. apply (gb_push (fun st m => handle_macro range be parse_float expr (go true) h p name l st m)).
    intros st m.
    assert (Q : forall z, In z l -> makes (handle_list be (go true) (list_children z) st m)).
    { intros z I. apply makes_list. intros x Ix. rewrite Forall_forall in H. destruct (H z I) as [_ G].
      rewrite Forall_forall in G. now apply G. }
    assert (FR2 : forall ld rd rule sty, makes (handle_frac_args be (go true) ld rd rule sty l st m)).
    { intros. unfold handle_frac_args.
      destruct l as [|[| | |a l1 b| | | | | | | |] [|[| | |a2 l2 b2| | | | | | | |] l]]; try apply makes_panic.
      apply makes_bind. intros num s1 s1' E1. apply (Q _ (or_introl eq_refl)) in E1.
      apply makes_bind. intros den s2 s2' E2. apply (Q _ (or_intror (or_introl eq_refl))) in E2.
      now apply makes_genfrac. }
    destruct h; cbn [Mtex.handle_macro].
    + apply makes_handle_space.
    + apply makes_symbol.
    + apply makes_custom.
    + apply makes_function.
    + unfold handle_frac. apply makes_bind. intros; apply FR2.
    + unfold handle_frac. apply makes_bind. intros; apply FR2.
    + unfold handle_frac. apply makes_bind. intros; apply FR2.
    + apply FR2.
    + unfold handle_sqrt.
      destruct l as [|x1 [|x2 [|x3 l]]]; try apply makes_panic.
      * destruct x1; try apply makes_panic. apply makes_bind. intros body s1 s1' E1. apply (Q _ (or_introl eq_refl)) in E1.
        now apply makes_sqrt_box.
      * destruct x1; try apply makes_panic.
        destruct x2; try (apply makes_bind; intros; apply makes_panic).
        apply makes_bind. intros root s1 s1' E1. apply (Q _ (or_introl eq_refl)) in E1.
        apply makes_bind. intros body s2 s2' E2. apply (Q _ (or_intror (or_introl eq_refl))) in E2.
        now apply makes_sqrt_box.
      * destruct x1, x2; apply makes_panic.
    + unfold handle_overline. destruct l as [|x1 l]; try apply makes_panic. destruct x1; try apply makes_panic.
      apply makes_bind. intros body s1 s1' E1. apply (Q _ (or_introl eq_refl)) in E1.
      now apply makes_overline_box.
  - intros w v s v' s' B E. cbn [Mtex.go] in E. apply bind_ok in E as (v1 & s1 & E1 & E).
    apply ret_ok in E as [-> _]. cbn [v_nodes].
    eapply (gb_mfold (go false) l); [|  |exact E1]; [|exact B].
    intros x I. apply FC in H. rewrite Forall_forall in H. now apply H.
  - intros w v s0 v' s' B E. cbn [Mtex.go] in E. apply bind_ok in E as (ts & s1 & E1 & E).
    apply bind_ok in E as (t & s2 & E2 & E). apply ret_ok in E as [-> _]. unfold push. cbn [v_nodes].
    apply Forall_app. split; [assumption|]. constructor; [|constructor].
    eapply makes_hlist; [|exact E2]. eapply chars_built; exact E1.
  - intros w. apply (gb_mfold (fun x v => mbind (handle_symbol range be expr x 0 (v_state v) (v_math v)) (fun t => mret (push t v)))).
    intros x _. apply (gb_push (fun st m => handle_symbol range be expr x 0 st m)). intros. apply makes_symbol.
  - intros w v s0 v' s' B E. cbn [Mtex.go] in E. destruct (v_math v) eqn:EM.
    + apply bind_ok in E as (h & s1 & _ & E). destruct h as [h|]; [|discriminate E].
      apply bind_ok in E as (t & s2 & E2 & E). apply ret_ok in E as [-> _]. unfold push. cbn [v_nodes].
      apply Forall_app. split; [assumption|]. constructor; [|constructor].
      revert E2. destruct h; cbn [handle_sym]; try (intros E2; discriminate E2); [apply makes_handle_space|apply makes_symbol].
    + apply bind_ok in E as (c & s2 & E2 & E). apply ret_ok in E as [-> _]. unfold push. cbn [v_nodes].
      apply Forall_app. split; [assumption|]. constructor; [|constructor]. eapply b_char; exact E2.
Qed.

Lemma typeset_built l size dpi : makes (typeset range be parse_float expr l size dpi).
Proof.
  unfold typeset. apply makes_bind. intros v s s' E. apply makes_hlist.
  destruct (gb_go_both (NList l)) as [G _]. eapply (G true); [|exact E]. constructor.
Qed.

End Go.
