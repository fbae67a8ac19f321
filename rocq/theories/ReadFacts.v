(** Proof that a typeset expression shows what it should (ReadSpec.v). *)
From Coq Require Import ZArith String Ascii List Bool Lia.
From Verif Require Import Utf8 Token Ast SetTable Parser Symbols PropSymbols TreeSpec Arith Box Ship ShipSpec ShipFacts ShipFacts2
  Mtex MtexSpec MtexFacts MtexFacts2 ReadSpec.
Import ListNotations.
Local Open Scope string_scope.
Local Open Scope list_scope.
Local Open Scope Z_scope.

(** ** Names *)
Section Names.
Variable range : Symbols.gset -> list string.
Hypothesis FR : fair range.

Lemma one_of_in l s : one_of l s = true <-> In s l.
Proof. unfold one_of. symmetry. apply in_existsb. Qed.
Lemma set_has_list l k : set_has (new_set l) k = one_of l k.
Proof.
  destruct (one_of l k) eqn:E.
  - apply C20_new_set_has. now apply one_of_in.
  - destruct (set_has (new_set l) k) eqn:H; [|reflexivity]. apply C20_new_set_has, one_of_in in H. congruence.
Qed.

Definition frac_names : list string := ["\frac"; "\dfrac"; "\tfrac"; "\binom"; "\sqrt"; "\overline"].
(** Names of spaced and punctuation symbols are not names of anything else. *)
Definition symbol_names : list string :=
  BinaryOperators_list ++ RelationSymbols_list ++ ArrowSymbols_list ++ PunctuationSymbols_list.
Lemma symbols_apart : forallb (fun s => negb (one_of ("\hspace" :: frac_names) s) &&
  negb (one_of FunctionNames_list (sdrop 1 s))) symbol_names = true.
Proof. vm_compute. reflexivity. Qed.
Lemma functions_apart : forallb (fun f => negb (one_of (map (sdrop 1) ("\hspace" :: frac_names)) f)) FunctionNames_list = true.
Proof. vm_compute. reflexivity. Qed.

Lemma space_assoc s : (match assoc s space_width with Some _ => true | None => false end) = one_of spacing_names s.
Proof.
  unfold one_of, spacing_names, space_width. cbn [existsb assoc].
  repeat match goal with |- context [String.eqb s ?x] =>
    let E := fresh in destruct (String.eqb s x) eqn:E;
      [apply String.eqb_eq in E; subst s; reflexivity|cbn [orb]] end.
  reflexivity.
Qed.

(** Which handler a name gets, read off the name. *)
Lemma handler_cases name h : handler range name = LOk (Some h) ->
  match h with
  | HSpace => one_of spacing_names name = true
  | HCustom => name = "\hspace"
  | HFunction => one_of ("\hspace" :: spacing_names) name = false /\ one_of FunctionNames_list (sdrop 1 name) = true
  | HFrac => name = "\frac" | HDFrac => name = "\dfrac" | HTFrac => name = "\tfrac" | HBinom => name = "\binom"
  | HSqrt => name = "\sqrt" | HOverline => name = "\overline"
  | HSymbol => one_of ("\hspace" :: spacing_names) name = false /\ one_of FunctionNames_list (sdrop 1 name) = false /\
      one_of frac_names name = false
  end.
Proof.
  unfold handler. rewrite space_assoc. destruct (one_of spacing_names name) eqn:S1.
  { intros [= <-]. reflexivity. }
  destruct (is_spaced range name || set_has (new_set PunctuationSymbols_list) name) eqn:S2.
  { intros [= <-].
    assert (I : In name symbol_names).
    { unfold symbol_names. rewrite !in_app_iff. apply orb_true_iff in S2 as [S2|S2].
      - apply (C20_is_spaced range name FR) in S2. tauto.
      - apply C20_new_set_has in S2. tauto. }
    pose proof symbols_apart as AP. rewrite forallb_forall in AP. specialize (AP _ I).
    apply andb_true_iff in AP as [A1 A2]. apply negb_true_iff in A1, A2.
    unfold one_of in A1 |- *. cbn [existsb] in A1 |- *. fold (one_of spacing_names name). rewrite S1.
    apply orb_false_iff in A1 as [A1 A3]. rewrite A1. repeat split; assumption. }
  destruct (String.eqb name "\hspace") eqn:S3.
  { intros [= <-]. now apply String.eqb_eq in S3. }
  assert (S4 : one_of ("\hspace" :: spacing_names) name = false).
  { unfold one_of. cbn [existsb]. fold (one_of spacing_names name). now rewrite S1, S3. }
  destruct name as [|a tl]; [discriminate|]. rewrite set_has_list. change (sdrop 1 (String a tl)) with tl.
  destruct (one_of FunctionNames_list tl) eqn:S5.
  { intros [= <-]. now split. }
  destruct (String.eqb (String a tl) "\frac") eqn:E1; [intros [= <-]; now apply String.eqb_eq|].
  destruct (String.eqb (String a tl) "\dfrac") eqn:E2; [intros [= <-]; now apply String.eqb_eq|].
  destruct (String.eqb (String a tl) "\tfrac") eqn:E3; [intros [= <-]; now apply String.eqb_eq|].
  destruct (String.eqb (String a tl) "\binom") eqn:E4; [intros [= <-]; now apply String.eqb_eq|].
  destruct (String.eqb (String a tl) "\sqrt") eqn:E5; [intros [= <-]; now apply String.eqb_eq|].
  destruct (String.eqb (String a tl) "\overline") eqn:E6; [intros [= <-]; now apply String.eqb_eq|].
  destruct (has_macro (String a tl)); [|discriminate]. intros [= <-].
  repeat split; try assumption. unfold one_of, frac_names. cbn [existsb]. now rewrite E1, E2, E3, E4, E5, E6.
Qed.
End Names.

(** ** Marks under shrinking *)
Definition lift (m : mark) : mark := match m with Letter s t k => Letter s t (Datatypes.S k) | _ => m end.

Lemma map_flat_map {X Y Z} (g : Y -> Z) (f : X -> list Y) l : map g (flat_map f l) = flat_map (fun x => map g (f x)) l.
Proof. induction l; cbn; [reflexivity|]. now rewrite map_app, IHl. Qed.
Lemma flat_map_ext_in' {X Y} (f g : X -> list Y) l : (forall x, In x l -> f x = g x) -> flat_map f l = flat_map g l.
Proof. induction l; cbn; intros H; [reflexivity|]. rewrite H by now left. f_equal. apply IHl. intros; apply H; now right. Qed.

Definition lifts (n : node) : Prop := forall i m t k, map lift (reading i m t k n) = reading i m t (Datatypes.S k) n.
Lemma lift_both n : lifts n /\ Forall lifts (list_children n).
Proof.
  assert (FC : forall l, Forall (fun n => lifts n /\ Forall lifts (list_children n)) l -> Forall lifts l).
  { intros l H. eapply Forall_impl; [|exact H]. cbn. tauto. }
  assert (FL : forall l, Forall lifts l -> forall i m t k,
    map lift (flat_map (reading i m t k) l) = flat_map (reading i m t (Datatypes.S k)) l).
  { intros l H i m t k. rewrite map_flat_map. apply flat_map_ext_in'. rewrite Forall_forall in H. intros x I. now apply H. }
  induction n using node_ind'; cbn [list_children]; split; auto; try (apply Forall_nil); intros i m t k.
  all: try reflexivity.
  - cbn [reading]. destruct i; [|reflexivity]. apply FL. auto.
  - destruct nm as [[q name]|]; [|reflexivity].
    assert (FA : forall z l0, In z l -> list_children z = l0 -> forall d,
      map lift (flat_map (reading true m t (k + d)) l0) = flat_map (reading true m t (Datatypes.S k + d)) l0).
    { intros z l0 I E d. change (Datatypes.S k + d)%nat with (Datatypes.S (k + d)). apply FL.
      rewrite Forall_forall in H. destruct (H z I) as [_ H2]. now rewrite E in H2. }
    cbn [reading].
    destruct (one_of _ name); [reflexivity|].
    destruct (one_of _ _); [rewrite map_map; reflexivity|].
    destruct (one_of _ name).
    { destruct l as [|[| | |a1 l1 b1| | | | | | | |] [|[| | |a2 l2 b2| | | | | | | |] l]]; try reflexivity.
      rewrite !map_app. rewrite (FA (NArg a1 l1 b1)) by (cbn; auto). rewrite (FA (NArg a2 l2 b2)) by (cbn; auto). reflexivity. }
    destruct (String.eqb name "\dfrac").
    { destruct l as [|[| | |a1 l1 b1| | | | | | | |] [|[| | |a2 l2 b2| | | | | | | |] l]]; try reflexivity.
      rewrite !map_app. rewrite (FA (NArg a1 l1 b1)) by (cbn; auto). rewrite (FA (NArg a2 l2 b2)) by (cbn; auto). reflexivity. }
    destruct (String.eqb name "\binom").
    { destruct l as [|[| | |a1 l1 b1| | | | | | | |] [|[| | |a2 l2 b2| | | | | | | |] l]]; try reflexivity.
      rewrite !map_app. rewrite (FA (NArg a1 l1 b1)) by (cbn; auto). rewrite (FA (NArg a2 l2 b2)) by (cbn; auto). reflexivity. }
    destruct (String.eqb name "\sqrt").
    { destruct l as [|[| | |a1 l1 b1|a1 l1 b1| | | | | | |] [|[| | |a2 l2 b2| | | | | | | |] [|? l]]]; try reflexivity.
      - rewrite !map_app. rewrite (FA (NArg a1 l1 b1)) by (cbn; auto). reflexivity.
      - rewrite !map_app. rewrite (FA (NOptArg a1 l1 b1)) by (cbn; auto). rewrite (FA (NArg a2 l2 b2)) by (cbn; auto). reflexivity. }
    destruct (String.eqb name "\overline").
    { destruct l as [|[| | |a1 l1 b1| | | | | | | |] l]; try reflexivity.
      rewrite !map_app. rewrite (FA (NArg a1 l1 b1)) by (cbn; auto). reflexivity. }
    reflexivity.
  - cbn [reading]. apply FL. auto.
  - cbn [reading]. now rewrite map_map.
  - cbn [reading]. now rewrite map_map.
  - cbn [reading]. destruct (m && _); reflexivity.
Qed.
Lemma lift_list i m t k l : map lift (flat_map (reading i m t k) l) = flat_map (reading i m t (Datatypes.S k)) l.
Proof. rewrite map_flat_map. apply flat_map_ext_in'. intros x _. apply lift_both. Qed.

(** ** Leaves of a box tree *)
Section Leaves.
Context {A : arith} {S : Type}.
Notation F := (Arith.F A).
Notation tnode := (@Box.tnode A).
Notation state := (@Box.state A).
Notation font := (@Box.font A).
Notation box := (@Box.box A).
Notation M := (@M S).

Inductive leaf : Type :=
  | LG (ft : font) (sym : string) (d : F) (lv : Z)
  | LR (b : box)
  | LBad.

Fixpoint leaves (vert : bool) (t : tnode) : list leaf :=
  match t with
  | TL _ _ _ _ l =>
    flat_map (fun y =>
      match y with
      | TChar c => if vert then [LBad] else [LG (c_font c) (c_sym c) (c_dpi c) (c_size c)]
      | TAccent _ => [LBad]
      | TRule b => if vert then [LR b] else [LBad]
      | TL ((KHList | KVList) as k) _ _ _ _ => leaves (is_vlist k) y
      | TL _ _ _ _ _ => [LBad]
      | _ => []
      end) l
  | _ => []
  end.
Definition leaf1 (vert : bool) (y : tnode) : list leaf :=
  match y with
  | TChar c => if vert then [LBad] else [LG (c_font c) (c_sym c) (c_dpi c) (c_size c)]
  | TAccent _ => [LBad]
  | TRule b => if vert then [LR b] else [LBad]
  | TL ((KHList | KVList) as k) _ _ _ _ => leaves (is_vlist k) y
  | TL _ _ _ _ _ => [LBad]
  | _ => []
  end.
Definition lf (vert : bool) (l : list tnode) : list leaf := flat_map (leaf1 vert) l.
Lemma leaves_TL vert k b sh gs l : leaves vert (TL k b sh gs l) = lf vert l. Proof. reflexivity. Qed.
Lemma lf_app vert a b : lf vert (a ++ b) = lf vert a ++ lf vert b. Proof. apply flat_map_app. Qed.
Lemma lf_cons vert x l : lf vert (x :: l) = leaf1 vert x ++ lf vert l. Proof. reflexivity. Qed.

(** Lists keep their leaves whatever is done to their dimensions. *)
Definition kids_of (k : lkind) (t : tnode) (l : list tnode) : Prop := exists b sh gs, t = TL k b sh gs l.
Lemma leaf1_h vert t l : kids_of KHList t l -> leaf1 vert t = lf false l. Proof. intros (b & sh & gs & ->). reflexivity. Qed.
Lemma leaf1_v vert t l : kids_of KVList t l -> leaf1 vert t = lf true l. Proof. intros (b & sh & gs & ->). reflexivity. Qed.
Lemma kids_shift k t l sh : kids_of k t l -> kids_of k (set_shift sh t) l.
Proof. intros (b & s & gs & ->). cbn. unfold kids_of. eauto. Qed.
Lemma kids_hpack k t l w ad : kids_of k t l -> kids_of k (hpack w ad t) l.
Proof. intros (b & s & gs & ->). cbn. unfold kids_of. eauto. Qed.
Lemma kids_vpack k t l h ad lim t' : kids_of k t l -> vpack h ad lim t = LOk t' -> kids_of k t' l.
Proof.
  intros (b & s & gs & ->). cbn [vpack]. destruct (vfold l dims0); intros E; [|discriminate E].
  injection E as <-. unfold kids_of. eauto.
Qed.

Variable be : @backend A S.

Lemma kern_leaves l : forall s l' s', kern_list be l s = LOk (l', s') -> forall vert, lf vert l' = lf vert l.
Proof.
  induction l as [|x l IH]; intros s l' s' E vert; cbn [kern_list] in E.
  - apply ret_ok in E as [-> _]. reflexivity.
  - apply bind_ok in E as (d & s1 & _ & E). apply bind_ok in E as (r & s2 & E2 & E).
    apply ret_ok in E as [-> _]. rewrite lf_cons, <- (IH _ _ _ E2). destruct (negb _); reflexivity.
Qed.
Lemma hlist_leaves l k s t s' : hlist_of be l k s = LOk (t, s') -> forall vert, leaf1 vert t = lf false l.
Proof.
  unfold hlist_of. intros E vert. apply bind_ok in E as (l' & s1 & E1 & E). apply ret_ok in E as [-> _].
  transitivity (lf false l'); [reflexivity|]. destruct k; [eapply kern_leaves; exact E1|].
  apply ret_ok in E1 as [-> _]. reflexivity.
Qed.
Lemma hlist_kids l k s t s' : hlist_of be l k s = LOk (t, s') -> exists l', kids_of KHList t l' /\ lf false l' = lf false l.
Proof.
  unfold hlist_of. intros E. apply bind_ok in E as (l' & s1 & E1 & E). apply ret_ok in E as [-> _].
  exists l'. split; [cbn; unfold kids_of; eauto|]. destruct k; [eapply kern_leaves; exact E1|].
  apply ret_ok in E1 as [-> _]. reflexivity.
Qed.
Lemma vlist_kids l s t s' : vlist_of (S:=S) l s = LOk (t, s') -> kids_of KVList t l.
Proof. intros E. apply vlist_of_shape in E as (b & gs & ->). unfold kids_of. eauto. Qed.

(** Half the thickness of a bar. *)
Variable thick : bool -> F -> Prop.
Record bar_rules : Prop := mk_bar_rules {
  br_under : forall ft d s t s', be_underline be ft d s = LOk (t, s') -> thick true (fmul A (frat 1 2) t);
  br_minus : fltb A (fopp A f1) f0 = false -> thick true (fmul A (frat 1 2) (fopp A f1));
  br_zero : thick false (fmul A (frat 1 2) f0);
  br_zero' : fltb A f0 f0 = true -> forall x, thick false x;
  br_scale : forall b x, thick b x -> thick b (fmul A x shrink_factor) }.
Hypothesis BR : bar_rules.

(** A leaf is the mark it should be, in an expression with layout state [st]. *)
Definition shw (st : state) (m : mark) (x : leaf) : Prop :=
  match m, x with
  | Letter sym typ k, LG ft s d lv =>
    s = sym /\ d = st_dpi st /\ ft = mk_font (f_name (st_font st)) typ (shrunk k (f_size (st_font st))) /\ lv <= 0
  | Delim sym typ, LG ft s d lv => s = sym /\ d = st_dpi st /\ f_name ft = f_name (st_font st) /\ f_type ft = typ
  | Bar b, LR r => thick b (b_height r) /\ b_depth r = b_height r
  | _, _ => False
  end.
Lemma shw_type st t m x : shw (set_type t st) m x <-> shw st m x. Proof. reflexivity. Qed.

(** [shr x x']: [x'] is [x] shrunk. *)
Definition shr (x x' : leaf) : Prop :=
  match x, x' with
  | LG ft s d lv, LG ft' s' d' lv' =>
    s' = s /\ d' = d /\ f_name ft' = f_name ft /\ f_type ft' = f_type ft /\
    (lv <= 0 -> f_size ft' = fmul A (f_size ft) shrink_factor /\ lv' <= 0)
  | LR b, LR b' => b' = box_shrink b
  | LBad, LBad => True
  | _, _ => False
  end.
Lemma shw_shr st m x x' : shw st m x -> shr x x' -> shw st (lift m) x'.
Proof.
  destruct m as [sym typ k|sym typ|b], x as [ft s d lv|b0|], x' as [ft' s' d' lv'|b0'|]; cbn; try tauto.
  - intros (-> & -> & -> & L) (-> & -> & E1 & E2 & E3). destruct (E3 L) as [E4 E5].
    repeat split; try assumption. destruct ft' as [n t z]. cbn in *. subst. reflexivity.
  - intros (-> & -> & E1 & E2) (-> & -> & E3 & E4 & _). repeat split; congruence.
  - intros [T1 T2] ->. unfold box_shrink. destruct (_ <? _); cbn; [|split; assumption].
    rewrite T2. split; [|reflexivity]. now apply (br_scale BR).
Qed.

Lemma shrink_leaves t : forall s t' s', shrink be t s = LOk (t', s') ->
  forall vert, Forall2 shr (leaf1 vert t) (leaf1 vert t').
Proof.
  induction t as [b|c|c|b|g|sz w|k b sh gs l IH] using tnode_ind'; intros s t' s' E vert; cbn [shrink] in E.
  - apply ret_ok in E as [-> _]. constructor.
  - apply ret_ok in E as [-> _]. destruct vert; cbn [leaf1]; (apply Forall2_cons; [|apply Forall2_nil]); [exact I|].
    unfold char_shrink, num_size_levels. destruct (Z.ltb_spec (c_size c - 1) 6); cbn; repeat split; intros; lia.
  - apply bind_ok in E as (c' & s1 & _ & E). apply ret_ok in E as [-> _]. cbn. constructor; constructor.
  - apply ret_ok in E as [-> _]. destruct vert; cbn [leaf1]; constructor; try constructor.
  - apply ret_ok in E as [-> _]. constructor.
  - apply ret_ok in E as [-> _]. constructor.
  - apply bind_ok in E as (l' & s1 & E1 & E). apply ret_ok in E as [-> _].
    assert (H : forall v, Forall2 shr (lf v l) (lf v l')).
    { intros v. clear vert. revert s l' s1 E1. induction IH as [|y l Hy _ IHl]; intros s l' s1 E1; cbn [mmap] in E1.
      - apply ret_ok in E1 as [-> _]. constructor.
      - apply bind_ok in E1 as (y' & s2 & E2 & E1). apply bind_ok in E1 as (r & s3 & E3 & E1).
        apply ret_ok in E1 as [-> _]. rewrite !lf_cons. apply Forall2_app; eauto. }
    destruct (_ <? _); destruct k; cbn [leaf1]; try (constructor; constructor); apply H.
Qed.

(** A computation that yields a tree with the given marks. *)
Definition yields (st : state) (ms : list mark) (m : M tnode) : Prop :=
  forall s t s', m s = LOk (t, s') -> forall vert, Forall2 (shw st) ms (leaf1 vert t).
Definition yieldsh (st : state) (ms : list mark) (m : M tnode) : Prop :=
  forall s t s', m s = LOk (t, s') -> Forall2 (shw st) ms (leaf1 false t).

Lemma y_bind {X} st ms (m : M X) (k : X -> M tnode) :
  (forall x s s', m s = LOk (x, s') -> yields st ms (k x)) -> yields st ms (mbind m k).
Proof. intros H s t s' E. apply bind_ok in E as (x & s1 & E1 & E). eapply H; eassumption. Qed.
Lemma yh_bind {X} st ms (m : M X) (k : X -> M tnode) :
  (forall x s s', m s = LOk (x, s') -> yieldsh st ms (k x)) -> yieldsh st ms (mbind m k).
Proof. intros H s t s' E. apply bind_ok in E as (x & s1 & E1 & E). eapply H; eassumption. Qed.
Lemma yh_of st ms m : yields st ms m -> yieldsh st ms m. Proof. intros H s t s' E. eapply H; exact E. Qed.
Lemma y_panic st ms e : yields st ms (mpanic e). Proof. intros s t s' E. discriminate E. Qed.
Lemma yh_panic st ms e : yieldsh st ms (mpanic e). Proof. intros s t s' E. discriminate E. Qed.
Lemma y_hlist st ms l k : Forall2 (shw st) ms (lf false l) -> yields st ms (hlist_of be l k).
Proof. intros H s t s' E vert. now rewrite (hlist_leaves _ _ _ _ _ E). Qed.

Lemma char_leaf sym st m s c s' typ : new_char be sym st m s = LOk (c, s') -> f_type (st_font st) = typ ->
  Forall2 (shw st) [Letter sym typ 0] (leaf1 false (TChar c)).
Proof.
  unfold new_char. intros E <-. apply bind_ok in E as (x & s1 & _ & E). apply ret_ok in E as [-> _].
  constructor; [|constructor]. cbn. repeat split; try lia. now destruct (st_font st).
Qed.
Lemma char_delim sym st m s c s' f st0 : new_char be sym st m s = LOk (c, s') ->
  st = st0 \/ st = mk_state (scale_font f (st_font st0)) (st_dpi st0) ->
  Forall2 (shw st0) [Delim sym (f_type (st_font st0))] (leaf1 false (TChar c)).
Proof.
  unfold new_char. intros E H. apply bind_ok in E as (x & s1 & _ & E). apply ret_ok in E as [-> _].
  constructor; [|constructor]. cbn. destruct H as [->| ->]; cbn; repeat split.
Qed.
Lemma space_leaf st p s t s' : make_space be st p s = LOk (t, s') -> forall v, leaf1 v t = [].
Proof. unfold make_space. intros E v. apply bind_ok in E as (x & s1 & _ & E). apply ret_ok in E as [-> _]. reflexivity. Qed.

Lemma y_auto sym h d st f : yields st [Delim sym (f_type (st_font st))] (auto_height_char be sym h d st f).
Proof.
  unfold auto_height_char. apply y_bind. intros _ _ _ _. apply y_bind. intros ch s1 s1' E1.
  apply y_bind. intros cs s2 s2' E2. intros s t s' E vert. apply bind_ok in E as (t0 & s3 & E3 & E).
  apply ret_ok in E as [-> _]. apply hlist_kids in E3 as (l' & K & L).
  apply (kids_shift _ _ _ (snd cs)) in K. rewrite (leaf1_h _ _ _ K), L, lf_cons, app_nil_r.
  destruct (negb _).
  - apply bind_ok in E2 as (ch' & s4 & E4 & E2). apply ret_ok in E2 as [-> _].
    eapply char_delim; [exact E4|right; reflexivity].
  - apply ret_ok in E2 as [-> _]. eapply char_delim; [exact E1|now left].
  Unshelve. exact f0.
Qed.
Lemma hrule_leaf st th b s t s' : hrule be st th s = LOk (t, s') ->
  (fltb A th f0 = true -> b = true \/ forall x, thick b x) ->
  (fltb A th f0 = false -> thick b (fmul A (frat 1 2) th)) ->
  Forall2 (shw st) [Bar b] (leaf1 true t).
Proof.
  unfold hrule. intros E H1 H2. apply bind_ok in E as (x & s1 & E1 & E). apply ret_ok in E as [-> _].
  constructor; [|constructor]. cbn. split; [|reflexivity].
  destruct (fltb A th f0) eqn:L.
  - destruct (H1 eq_refl) as [->|T]; [|apply T]. eapply (br_under BR); exact E1.
  - apply ret_ok in E1 as [-> _]. now apply H2.
Qed.
Lemma hrule_under st th ft d s1 s1' s t s' : be_underline be ft d s1 = LOk (th, s1') -> hrule be st th s = LOk (t, s') ->
  Forall2 (shw st) [Bar true] (leaf1 true t).
Proof. intros U E. eapply hrule_leaf; [exact E|now left|]. intros _. eapply (br_under BR); exact U. Qed.
Lemma hrule_minus st s t s' : hrule be st (fopp A f1) s = LOk (t, s') -> Forall2 (shw st) [Bar true] (leaf1 true t).
Proof. intros E. eapply hrule_leaf; [exact E|now left|]. apply (br_minus BR). Qed.
Lemma hrule_zero st s t s' : hrule be st f0 s = LOk (t, s') -> Forall2 (shw st) [Bar false] (leaf1 true t).
Proof.
  intros E. eapply hrule_leaf; [exact E|right; now apply (br_zero' BR)|]. intros _. apply (br_zero BR).
Qed.

Variable range : Symbols.gset -> list string.
Hypothesis FR : fair range.
Variable parse_float : string -> option F.
Variable expr : string.
Notation go := (go range be parse_float expr).
Notation typ st := (f_type (st_font st)).
Notation visitor := (@visitor A).

Lemma yh_symbol sym pos st m : yieldsh st [Letter sym (typ st) 0] (handle_symbol range be expr sym pos st m).
Proof.
  unfold handle_symbol. apply yh_bind. intros ch s0 s0' E0.
  assert (C : Forall2 (shw st) [Letter sym (typ st) 0] (leaf1 false (TChar ch))) by (eapply char_leaf; [exact E0|reflexivity]).
  assert (C' : yieldsh st [Letter sym (typ st) 0] (mret (TChar ch))).
  { intros s t s' E. apply ret_ok in E as [-> _]. exact C. }
  destruct (is_spaced range sym).
  - apply yh_bind. intros bf s1 s1' _. destruct (_ && _); [exact C'|].
    apply yh_bind. intros k1 s2 s2' E1. apply yh_bind. intros k2 s3 s3' E2.
    apply yh_of, y_hlist. rewrite !lf_cons, (space_leaf _ _ _ _ _ E1), (space_leaf _ _ _ _ _ E2). exact C.
  - destruct (set_has _ sym); [|exact C']. destruct (String.eqb sym "."); [|apply yh_panic].
    apply yh_bind. intros af s1 s1' _. destruct (_ && _); [exact C'|].
    apply yh_bind. intros k1 s2 s2' E1.
    apply yh_of, y_hlist. rewrite !lf_cons, (space_leaf _ _ _ _ _ E1). exact C.
Qed.

Lemma yh_space name st : yieldsh st [] (handle_space be name st).
Proof.
  unfold handle_space. destruct (assoc name space_width) as [[]|]; [|apply yh_panic].
  intros s t s' E. rewrite (space_leaf _ _ _ _ _ E). constructor.
Qed.
Lemma yh_custom args st : yieldsh st [] (handle_custom_space be parse_float args st).
Proof.
  unfold handle_custom_space. destruct args as [|[| | |a [|[| | | | | | | |q v| | |] l] b| | | | | | | |] args]; try apply yh_panic.
  destruct (parse_float v); [|apply yh_panic]. intros s t s' E. rewrite (space_leaf _ _ _ _ _ E). constructor.
Qed.

Lemma chars_leaves str st m s ts s' : new_chars be str st m s = LOk (ts, s') ->
  Forall2 (shw st) (map (fun x => Letter x (typ st) 0) (letters str)) (lf false ts).
Proof.
  unfold new_chars. change (rune_strings str) with (letters str).
  revert s ts s'. induction (letters str) as [|x l IH]; intros s ts s' E; cbn [mmap] in E.
  - apply ret_ok in E as [-> _]. constructor.
  - apply bind_ok in E as (y & s1 & E1 & E). apply bind_ok in E as (r & s2 & E2 & E). apply ret_ok in E as [-> _].
    apply bind_ok in E1 as (c & s3 & E3 & E1). apply ret_ok in E1 as [-> _].
    cbn [map]. rewrite lf_cons. apply (Forall2_app (l1:=[_])); [|eauto]. eapply char_leaf; [exact E3|reflexivity].
Qed.

Lemma yh_function name st m :
  yieldsh st (map (fun x => Letter x "rm" 0) (letters (sdrop 1 name))) (handle_function be name st m).
Proof.
  unfold handle_function. apply yh_bind. intros ts s s' E. apply yh_of, y_hlist.
  apply chars_leaves in E. exact E.
Qed.

Lemma y_delim ms mid st : (forall vert, Forall2 (shw st) ms (leaf1 vert mid)) ->
  yields st ([Delim "(" (typ st)] ++ ms ++ [Delim ")" (typ st)]) (auto_sized_delimiter be "(" mid ")" st).
Proof.
  intros H. unfold auto_sized_delimiter. cbn [negb String.eqb Ascii.eqb Bool.eqb].
  apply y_bind. intros l s1 s1' E1. apply y_bind. intros r s2 s2' E2.
  apply bind_ok in E1 as (x1 & s3 & E1 & E3). apply ret_ok in E3 as [-> _].
  apply bind_ok in E2 as (x2 & s4 & E2 & E4). apply ret_ok in E4 as [-> _].
  apply y_hlist. rewrite lf_app, !lf_cons. cbn [lf flat_map]. rewrite !app_nil_r.
  apply Forall2_app; [eapply y_auto; exact E1|]. apply Forall2_app; [apply H|eapply y_auto; exact E2].
Qed.

Definition sized (sty : style) (ms : list mark) : list mark := match sty with DisplayStyle => ms | TextStyle => map lift ms end.
Lemma shrink_shw st ms t s t' s' : (forall vert, Forall2 (shw st) ms (leaf1 vert t)) -> shrink be t s = LOk (t', s') ->
  forall vert, Forall2 (shw st) (map lift ms) (leaf1 vert t').
Proof.
  intros H E vert. specialize (H vert). apply (fun X => shrink_leaves _ _ _ _ X vert) in E.
  revert E. generalize (leaf1 vert t'). induction H as [|m x ms xs H1 H2 IH]; intros l E; inversion E; subst; constructor.
  - eapply shw_shr; eassumption.
  - apply IH. assumption.
Qed.

Lemma y_genfrac b ld rd rule sty ms1 ms2 num den st :
  (forall s t s', hrule be st rule s = LOk (t, s') -> Forall2 (shw st) [Bar b] (leaf1 true t)) ->
  (forall vert, Forall2 (shw st) ms1 (leaf1 vert num)) -> (forall vert, Forall2 (shw st) ms2 (leaf1 vert den)) ->
  (ld = "" /\ rd = "") \/ (ld = "(" /\ rd = ")") ->
  yields st (if String.eqb ld "" then sized sty ms1 ++ [Bar b] ++ sized sty ms2
             else [Delim "(" (typ st)] ++ (sized sty ms1 ++ [Bar b] ++ sized sty ms2) ++ [Delim ")" (typ st)])
    (genfrac be ld rd rule sty num den st).
Proof.
  intros HR H1 H2 HD. unfold genfrac. apply y_bind. intros th s0 s0' _.
  assert (SH : forall ms x, (forall vert, Forall2 (shw st) ms (leaf1 vert x)) ->
    forall s y s', match sty with DisplayStyle => mret x | TextStyle => shrink be x end s = LOk (y, s') ->
    forall vert, Forall2 (shw st) (sized sty ms) (leaf1 vert y)).
  { intros ms x Hx s y s' E. destruct sty; [apply ret_ok in E as [-> _]; assumption|]. eapply shrink_shw; eassumption. }
  apply y_bind. intros n s1 s1' E1. pose proof (SH _ _ H1 _ _ _ E1) as Y1. clear E1.
  apply y_bind. intros d s2 s2' E2. pose proof (SH _ _ H2 _ _ _ E2) as Y2. clear E2.
  apply y_bind. intros cn s3 s3' E3. unfold hcentered in E3. apply hlist_kids in E3 as (l3 & K3 & L3). cbn [app] in L3.
  apply y_bind. intros cd s4 s4' E4. unfold hcentered in E4. apply hlist_kids in E4 as (l4 & K4 & L4). cbn [app] in L4.
  apply y_bind. intros bar s5 s5' E5. apply HR in E5.
  apply y_bind. intros vl s6 s6' E6. apply vlist_kids in E6.
  apply y_bind. intros m s7 s7' _.
  apply y_bind. intros bx s8 s8' E8.
  assert (HX : forall vert, Forall2 (shw st) (sized sty ms1 ++ [Bar b] ++ sized sty ms2) (leaf1 vert bx)).
  { intros vert. rewrite (hlist_leaves _ _ _ _ _ E8). rewrite !lf_cons.
    rewrite (leaf1_v false _ _ (kids_shift _ _ _ _ E6)). rewrite !lf_cons. cbn [lf flat_map].
    rewrite (leaf1_h true _ _ (kids_hpack _ _ _ (fmax A (t_width n) (t_width d)) false K3)), L3.
    rewrite (leaf1_h true _ _ (kids_hpack _ _ _ (fmax A (t_width n) (t_width d)) false K4)), L4.
    repeat rewrite lf_cons. change (lf false []) with (@nil leaf). change (lf true []) with (@nil leaf).
    change (leaf1 false glue_ss) with (@nil leaf). cbn [leaf1 vbox hbox]. rewrite ?app_nil_r. cbn [app].
    apply Forall2_app; [apply Y1|]. apply (Forall2_app (l1:=[_])); [exact E5|apply Y2]. }
  destruct HD as [[-> ->]|[-> ->]].
  - cbn [String.eqb Ascii.eqb Bool.eqb negb orb]. intros s t s' E. apply ret_ok in E as [-> _]. exact HX.
  - cbn [String.eqb Ascii.eqb Bool.eqb negb orb]. now apply y_delim.
Qed.

Lemma mlift_ok {X} (r : lres X) (s : S) x s' : mlift r s = LOk (x, s') -> r = LOk x.
Proof. destruct r; cbn; intros E; [|discriminate E]. now apply ret_ok in E as [-> _]. Qed.

Lemma y_sqrt root ms1 body ms2 st :
  match root with Some r => forall vert, Forall2 (shw st) ms1 (leaf1 vert r) | None => ms1 = [] end ->
  (forall vert, Forall2 (shw st) ms2 (leaf1 vert body)) ->
  yields st (map lift (map lift ms1) ++ [Delim "\__sqrt__" (typ st); Bar true] ++ ms2) (sqrt_box be root body st).
Proof.
  intros H1 H2. unfold sqrt_box. apply y_bind. intros th s0 s0' _.
  apply y_bind. intros ck s1 s1' E1. pose proof (y_auto _ _ _ _ _ _ _ _ E1) as Y1.
  apply y_bind. intros pd s2 s2' E2. pose proof (hlist_leaves _ _ _ _ _ E2) as L2.
  apply y_bind. intros bar s3 s3' E3. apply hrule_minus in E3.
  apply y_bind. intros rh s4 s4' E4. apply vlist_kids in E4.
  apply y_bind. intros rh' s5 s5' E5. apply mlift_ok in E5. apply (kids_vpack _ _ _ _ _ _ _ E4) in E5.
  apply y_bind. intros rt s6 s6' E6.
  assert (L6 : forall vert, Forall2 (shw st) (map lift (map lift ms1)) (leaf1 vert rt)).
  { destruct root as [r|].
    - apply bind_ok in E6 as (r1 & s & E61 & E62). eapply shrink_shw; [|exact E62]. eapply shrink_shw; [|exact E61]. exact H1.
    - apply ret_ok in E6 as [-> _]. subst. constructor. }
  apply y_bind. intros inn s7 s7' E7. pose proof (hlist_leaves _ _ _ _ _ E7) as L7.
  apply y_bind. intros vl s8 s8' E8. apply vlist_kids in E8.
  apply y_hlist. rewrite !lf_cons, (leaf1_v false _ _ (kids_shift _ _ _ _ E8)), (leaf1_v false _ _ E5).
  rewrite !lf_cons, L7, L2, !lf_cons. cbn [lf flat_map leaf1 new_kern glue_fill new_glue hbox app]. rewrite !app_nil_r.
  apply Forall2_app; [apply L6|]. apply (Forall2_app (l1:=[_])); [apply Y1|].
  apply (Forall2_app (l1:=[_])); [apply E3|apply H2].
Qed.

Lemma y_overline body ms st : (forall vert, Forall2 (shw st) ms (leaf1 vert body)) ->
  yields st ([Bar true] ++ ms) (overline_box be body st).
Proof.
  intros H. unfold overline_box. apply y_bind. intros th s0 s0' _.
  apply y_bind. intros bar s3 s3' E3. apply hrule_minus in E3.
  apply y_bind. intros inn s2 s2' E2. pose proof (hlist_leaves _ _ _ _ _ E2) as L2.
  apply y_bind. intros rh s4 s4' E4. apply vlist_kids in E4.
  apply y_bind. intros rh' s5 s5' E5. apply mlift_ok in E5. apply (kids_vpack _ _ _ _ _ _ _ E4) in E5.
  apply y_hlist. rewrite !lf_cons, (leaf1_v false _ _ E5), !lf_cons, L2, !lf_cons.
  cbn [lf flat_map leaf1 glue_fill new_glue app]. rewrite !app_nil_r.
  apply (Forall2_app (l1:=[_])); [exact E3|apply H].
Qed.

(** ** The visitor *)
Definition grows (ms : state -> bool -> list mark) (f : visitor -> M visitor) : Prop := forall ns st m s v' s',
  f (mk_visitor ns st m) s = LOk (v', s') ->
  exists new, v' = mk_visitor (ns ++ new) st m /\ Forall2 (shw st) (ms st m) (lf false new).

Lemma gr_mfold {X} (f : X -> visitor -> M visitor) (ms : X -> state -> bool -> list mark) l :
  (forall x, In x l -> grows (ms x) (f x)) -> grows (fun st m => flat_map (fun x => ms x st m) l) (mfold f l).
Proof.
  induction l as [|x l IH]; intros H ns st m s v' s' E; cbn [mfold] in E.
  - apply ret_ok in E as [-> _]. exists []. rewrite app_nil_r. split; [reflexivity|constructor].
  - apply bind_ok in E as (v1 & s1 & E1 & E). apply (H x (or_introl eq_refl)) in E1 as (n1 & -> & F1).
    apply IH in E as (n2 & -> & F2); [|intros; apply H; now right].
    exists (n1 ++ n2). rewrite app_assoc, lf_app. split; [reflexivity|]. cbn [flat_map]. now apply Forall2_app.
Qed.
Lemma gr_push (ms : state -> bool -> list mark) (k : state -> bool -> M tnode) : (forall st m, yieldsh st (ms st m) (k st m)) ->
  grows ms (fun v => mbind (k (v_state v) (v_math v)) (fun t => mret (push t v))).
Proof.
  intros H ns st m s v' s' E. cbn [v_state v_math] in E. apply bind_ok in E as (t & s1 & E1 & E). apply ret_ok in E as [-> _].
  exists [t]. split; [reflexivity|]. cbn [lf flat_map]. rewrite app_nil_r. eapply H; exact E1.
Qed.

Lemma y_list w l st m : (forall x, In x l -> grows (fun st m => reading w m (typ st) 0 x) (go w x)) ->
  yields st (flat_map (reading w m (typ st) 0) l) (handle_list be (go w) l st m).
Proof.
  intros H. unfold handle_list. apply y_bind. intros v s s' E. apply y_hlist.
  apply (gr_mfold (go w) (fun x st m => reading w m (typ st) 0 x) l H) in E as (new & -> & F). exact F.
Qed.

Lemma shw_all_type st t ms l : Forall2 (shw (set_type t st)) ms l -> Forall2 (shw st) ms l.
Proof. intros H. exact H. Qed.

Definition gr (n : node) : Prop := forall w, grows (fun st m => reading w m (typ st) 0 n) (go w n).
Lemma gr_go_both n : gr n /\ Forall gr (list_children n).
Proof.
  assert (FC : forall l, Forall (fun n => gr n /\ Forall gr (list_children n)) l -> Forall gr l).
  { intros l H. eapply Forall_impl; [|exact H]. cbn. tauto. }
  assert (BAD : forall n0, (forall w v s, exists e, go w n0 v s = LPanic e) -> gr n0).
  { intros n0 H w ns st m s v' s' E. destruct (H w (mk_visitor ns st m) s) as (e & E2). rewrite E2 in E. discriminate E. }
  induction n using node_ind'; cbn [list_children]; split; auto; try (apply Forall_nil);
    try (apply BAD; intros [] v s0; eexists; reflexivity).
  - intros [] ns st m s v' s' E; [discriminate E|]. apply ret_ok in E as [-> _]. exists []. rewrite app_nil_r.
    split; [reflexivity|constructor].
  - intros [] ns st m s v' s' E; cbn [Mtex.go] in E.
    + apply (gr_mfold (go true) (fun x st m => reading true m (typ st) 0 x) l) in E as (new & -> & F2).
      * exists new. split; [reflexivity|exact F2].
      * intros x I. apply FC in H. rewrite Forall_forall in H. now apply H.
    + apply ret_ok in E as [-> _]. exists []. rewrite app_nil_r. split; [reflexivity|constructor].
  - destruct nm as [[p name]|]; [|apply BAD; intros w v s; eexists; reflexivity].
    intros w ns st m s v' s' E. cbn [Mtex.go] in E.
    apply bind_ok in E as (h & s1 & EH & E). apply mlift_ok in EH. destruct h as [h|]; [|discriminate E].
    apply (handler_cases _ FR) in EH.
    revert ns st m s1 v' s' E.
    apply (gr_push (fun st m => reading w m (typ st) 0 (NMacro (Some (p, name)) l))
             (fun st m => handle_macro range be parse_float expr (go true) h p name l st m)).
    intros st m. clear s.
    assert (Q : forall z, In z l -> yields st (flat_map (reading true m (typ st) 0) (list_children z))
                                      (handle_list be (go true) (list_children z) st m)).
    { intros z I. apply y_list. intros x Ix. rewrite Forall_forall in H. destruct (H z I) as [_ G].
      rewrite Forall_forall in G. now apply G. }
    assert (QF : forall b ld rd rule sty,
      (forall s t s', hrule be st rule s = LOk (t, s') -> Forall2 (shw st) [Bar b] (leaf1 true t)) ->
      (ld = "" /\ rd = "") \/ (ld = "(" /\ rd = ")") ->
      yields st (match l with
        | NArg _ l1 _ :: NArg _ l2 _ :: _ =>
          let r1 := sized sty (flat_map (reading true m (typ st) 0) l1) in
          let r2 := sized sty (flat_map (reading true m (typ st) 0) l2) in
          if String.eqb ld "" then r1 ++ [Bar b] ++ r2 else [Delim "(" (typ st)] ++ (r1 ++ [Bar b] ++ r2) ++ [Delim ")" (typ st)]
        | _ => [] end) (handle_frac_args be (go true) ld rd rule sty l st m)).
    { intros b ld rd rule sty HR HD. unfold handle_frac_args.
      destruct l as [|[| | |a l1 b1| | | | | | | |] [|[| | |a2 l2 b2| | | | | | | |] l]]; try apply y_panic.
      apply y_bind. intros num s1 s1' E1. pose proof (Q _ (or_introl eq_refl) _ _ _ E1) as Y1.
      apply y_bind. intros den s2 s2' E2. pose proof (Q _ (or_intror (or_introl eq_refl)) _ _ _ E2) as Y2.
      cbn zeta. now apply y_genfrac. }
    clear H FC BAD.
    destruct h; cbn [Mtex.handle_macro].
    + (* HSpace *) cbn [reading]. replace (one_of ("\hspace" :: spacing_names) name) with true; [apply yh_space|].
      unfold one_of in EH |- *. cbn [existsb] in EH |- *. rewrite EH. now rewrite orb_true_r.
    + (* HSymbol *) destruct EH as (E1 & E2 & E3). cbn [reading]. rewrite E1, E2.
      unfold one_of, frac_names in E3. cbn [existsb] in E3.
      repeat match type of E3 with _ || _ = false => apply orb_false_iff in E3 as [? E3] end.
      unfold one_of. cbn [existsb].
      repeat match goal with HH : String.eqb name _ = false |- _ => rewrite HH; clear HH end. cbn [orb].
      apply yh_symbol.
    + subst name. apply yh_custom.
    + destruct EH as [E1 E2]. cbn [reading]. rewrite E1, E2. apply yh_function.
    + subst name. unfold handle_frac. apply yh_bind. intros th s1 s1' E1. apply yh_of.
      pose proof (QF true "" "" th TextStyle (fun s t s' => hrule_under st th _ _ _ _ s t s' E1) (or_introl (conj eq_refl eq_refl))) as Y.
      cbn zeta in Y. cbn [String.eqb sized] in Y.
      destruct l as [|[| | |a l1 b1| | | | | | | |] [|[| | |a2 l2 b2| | | | | | | |] l]]; try exact Y.
      rewrite !lift_list in Y. exact Y.
    + subst name. unfold handle_frac. apply yh_bind. intros th s1 s1' E1. apply yh_of.
      pose proof (QF true "" "" th DisplayStyle (fun s t s' => hrule_under st th _ _ _ _ s t s' E1) (or_introl (conj eq_refl eq_refl))) as Y.
      destruct l as [|[| | |a l1 b1| | | | | | | |] [|[| | |a2 l2 b2| | | | | | | |] l]]; exact Y.
    + subst name. unfold handle_frac. apply yh_bind. intros th s1 s1' E1. apply yh_of.
      pose proof (QF true "" "" th TextStyle (fun s t s' => hrule_under st th _ _ _ _ s t s' E1) (or_introl (conj eq_refl eq_refl))) as Y.
      cbn zeta in Y. cbn [String.eqb sized] in Y.
      destruct l as [|[| | |a l1 b1| | | | | | | |] [|[| | |a2 l2 b2| | | | | | | |] l]]; try exact Y.
      rewrite !lift_list in Y. exact Y.
    + subst name. unfold handle_binom. apply yh_of.
      pose proof (QF false "(" ")" f0 TextStyle (hrule_zero st) (or_intror (conj eq_refl eq_refl))) as Y.
      cbn zeta in Y. cbn [String.eqb sized] in Y.
      destruct l as [|[| | |a l1 b1| | | | | | | |] [|[| | |a2 l2 b2| | | | | | | |] l]]; try exact Y.
      rewrite !lift_list in Y. rewrite <- !app_assoc in Y. exact Y.
    + subst name. apply yh_of. unfold handle_sqrt.
      destruct l as [|x1 [|x2 [|x3 l]]]; try apply y_panic.
      * destruct x1; try apply y_panic. apply y_bind. intros body s1 s1' E1. pose proof (Q _ (or_introl eq_refl) _ _ _ E1) as Y1.
        exact (y_sqrt None [] body _ st eq_refl Y1).
      * destruct x1; try apply y_panic.
        destruct x2; try (apply y_bind; intros; apply y_panic).
        apply y_bind. intros root s1 s1' E1. pose proof (Q _ (or_introl eq_refl) _ _ _ E1) as Y1.
        apply y_bind. intros body s2 s2' E2. pose proof (Q _ (or_intror (or_introl eq_refl)) _ _ _ E2) as Y2.
        pose proof (y_sqrt (Some root) _ body _ st Y1 Y2) as Y. cbn [list_children] in Y. rewrite !lift_list in Y. exact Y.
      * destruct x1, x2; apply y_panic.
    + subst name. apply yh_of. unfold handle_overline. destruct l as [|x1 l]; try apply y_panic. destruct x1; try apply y_panic.
      apply y_bind. intros body s1 s1' E1. pose proof (Q _ (or_introl eq_refl) _ _ _ E1) as Y1.
      exact (y_overline body _ st Y1).
  - intros w ns st m s v' s' E. cbn [Mtex.go] in E. apply bind_ok in E as (v1 & s1 & E1 & E).
    apply ret_ok in E as [-> _]. cbn [v_nodes v_state v_math] in *.
    apply (gr_mfold (go false) (fun x st m => reading false m (typ st) 0 x) l) in E1 as (new & -> & F2).
    + exists new. cbn [v_nodes v_state]. rewrite set_type_back. split; [reflexivity|exact F2].
    + intros x I. apply FC in H. rewrite Forall_forall in H. now apply H.
  - intros w ns st m s0 v' s' E. cbn [Mtex.go v_state v_math] in E. apply bind_ok in E as (ts & s1 & E1 & E).
    apply bind_ok in E as (t & s2 & E2 & E). apply ret_ok in E as [-> _]. exists [t]. split; [reflexivity|].
    cbn [lf flat_map]. rewrite app_nil_r, (hlist_leaves _ _ _ _ _ E2). apply chars_leaves in E1. exact E1.
  - intros w ns st m s0 v' s' E. cbn [Mtex.go] in E.
    apply (gr_mfold (fun x v => mbind (handle_symbol range be expr x 0 (v_state v) (v_math v)) (fun t => mret (push t v)))
             (fun x st m => [Letter x (typ st) 0]) (letters s)) in E as (new & -> & F2).
    + exists new. split; [reflexivity|]. cbn [reading]. revert F2. generalize (lf false new).
      induction (letters s); cbn; intros; auto.
    + intros x _. apply (gr_push (fun st m => [Letter x (typ st) 0]) (fun st m => handle_symbol range be expr x 0 st m)).
      intros. apply yh_symbol.
  - intros w ns st m s0 v' s' E. cbn [Mtex.go v_math v_state] in E. cbn [reading]. destruct m.
    + apply bind_ok in E as (h & s1 & EH & E). apply mlift_ok in EH. destruct h as [h|]; [|discriminate E].
      apply (handler_cases _ FR) in EH.
      apply bind_ok in E as (t & s2 & E2 & E). apply ret_ok in E as [-> _]. exists [t]. split; [reflexivity|].
      cbn [lf flat_map andb]. rewrite app_nil_r. revert E2. destruct h; cbn [handle_sym]; try (intros E2; discriminate E2).
      * rewrite EH. apply yh_space.
      * destruct EH as (E1 & _ & _). unfold one_of in E1. cbn [existsb] in E1. apply orb_false_iff in E1 as [_ E1].
        unfold one_of. rewrite E1. apply yh_symbol.
    + apply bind_ok in E as (c & s2 & E2 & E). apply ret_ok in E as [-> _]. exists [TChar c]. split; [reflexivity|].
      cbn [lf flat_map andb]. rewrite app_nil_r. eapply char_leaf; [exact E2|reflexivity].
Qed.

Lemma typeset_reading l size dpi s t s' : typeset range be parse_float expr l size dpi s = LOk (t, s') ->
  Forall2 (shw (mk_state (mk_font "default" "rm" size) dpi)) (reading true false "rm" 0 (NList l)) (leaf1 false t).
Proof.
  unfold typeset. intros E. apply bind_ok in E as (v & s1 & E1 & E).
  destruct (gr_go_both (NList l)) as [G _]. apply (G true) in E1 as (new & -> & F2).
  rewrite (hlist_leaves _ _ _ _ _ E). exact F2.
Qed.

End Leaves.
