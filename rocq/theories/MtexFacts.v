(** Facts about the mtex model. *)
From Coq Require Import ZArith String Ascii List Bool Lia Permutation.
From Verif Require Import Utf8 Utf8Facts Token Ast MacroTable SymTable SetTable MtexTable Parser Grammar Stream Symbols
  PropSymbols TreeSpec Arith Box Ship ShipSpec ShipFacts ShipFacts2 Mtex MtexSpec.
Import ListNotations.
Local Open Scope string_scope.
Local Open Scope list_scope.
Local Open Scope Z_scope.

Ltac inv H := inversion H; subst; clear H.

(** ** The handler table *)

Definition id_range (s : Symbols.gset) : list string := s.
Lemma id_fair : fair id_range. Proof. intros s. apply Permutation_refl. Qed.

Lemma set_has_same s t k : (forall k, set_has s k = true <-> set_has t k = true) -> set_has s k = set_has t k.
Proof.
  intros H. specialize (H k). destruct (set_has s k), (set_has t k); intuition congruence.
Qed.

Lemma is_spaced_range range k : fair range -> is_spaced range k = is_spaced id_range k.
Proof.
  intros F. pose proof (C20_is_spaced range k F) as H1. pose proof (C20_is_spaced id_range k id_fair) as H2.
  destruct (is_spaced range k), (is_spaced id_range k); intuition congruence.
Qed.

Lemma handler_range range name : fair range -> handler range name = handler id_range name.
Proof. intros F. unfold handler. now rewrite (is_spaced_range range name F). Qed.

(** What [handler] gives for each known macro. *)
Definition kind_of (name : string) (h : hkind) : bool :=
  match h with
  | HSpace => match assoc name space_width with Some _ => true | None => false end
  | HCustom => String.eqb name "\hspace"
  | HFunction => existsb (String.eqb (sdrop 1 name)) FunctionNames_list
  | HFrac => String.eqb name "\frac"
  | HDFrac => String.eqb name "\dfrac"
  | HTFrac => String.eqb name "\tfrac"
  | HBinom => String.eqb name "\binom"
  | HSqrt => String.eqb name "\sqrt"
  | HOverline => String.eqb name "\overline"
  | HSymbol => negb (existsb (String.eqb name) ["\hspace"; "\frac"; "\dfrac"; "\tfrac"; "\binom"; "\sqrt"; "\overline"])
  end.
Definition slots_of (name : string) : option (list slot) :=
  if existsb (String.eqb name) ["\frac"; "\dfrac"; "\tfrac"; "\binom"] then Some [Req; Req]
  else if String.eqb name "\sqrt" then Some [Opt; Req]
  else if String.eqb name "\overline" then Some [Req]
  else if String.eqb name "\hspace" then Some [Req]
  else None.
Definition slots_eqb (a b : list slot) : bool :=
  (fix go a b := match a, b with
   | [], [] => true
   | Req :: a', Req :: b' => go a' b'
   | Opt :: a', Opt :: b' => go a' b'
   | _, _ => false end) a b.
Lemma slots_eqb_eq a b : slots_eqb a b = true -> a = b.
Proof. revert b. induction a as [|[] a IH]; intros [|[] b] H; try discriminate; auto; f_equal; now apply IH. Qed.

Definition macro_check (name : string) : bool :=
  match handler id_range name with
  | LOk (Some h) =>
    kind_of name h &&
    (negb (set_has (new_set PunctuationSymbols_list) name) || existsb (String.eqb name) ["\ldotp"; "\cdotp"])
    && match slots_of name, known_macro name with
       | Some a, Some b => slots_eqb a b
       | Some _, None => false
       | None, _ => true
       end
  | _ => false
  end.
Definition macro_names : list string := map fst builtin_macros ++ map (String "\") symbols.

Lemma assoc_in {X} k (l : list (string * X)) v : assoc k l = Some v -> In k (map fst l).
Proof.
  induction l as [|[k' v'] l IH]; cbn [assoc map fst]; [discriminate|].
  destruct (String.eqb_spec k k') as [<-|]; [intros _; now left|]. intros H. right. auto.
Qed.

Lemma known_in name sg : known_macro name = Some sg -> In name macro_names.
Proof.
  unfold known_macro, lookup_macro, macro_names. intros H. apply in_or_app.
  destruct (assoc name builtin_macros) eqn:E; [left; eapply assoc_in; eassumption|].
  right. destruct name as [|a k]; [discriminate|].
  assert (D : a = "\"%char /\ assoc k tex2uni <> None).
  { destruct a as [[] [] [] [] [] [] [] []]; try discriminate. split; [reflexivity|]. destruct (assoc k tex2uni); [discriminate|easy]. }
  destruct D as [-> D]. apply in_map. destruct (assoc k tex2uni) eqn:E'; [|easy]. eapply assoc_in; eassumption.
Qed.

Lemma all_macros_checked : forallb macro_check macro_names = true.
Proof. vm_compute. reflexivity. Qed.

Lemma macro_checked name sg : known_macro name = Some sg -> macro_check name = true.
Proof. intros H. eapply forallb_forall; [exact all_macros_checked|]. eapply known_in; eassumption. Qed.

Lemma in_existsb k l : In k l <-> existsb (String.eqb k) l = true.
Proof.
  rewrite existsb_exists. split.
  - intros H. exists k. split; [assumption|apply String.eqb_refl].
  - intros (x & I & E). apply String.eqb_eq in E. now subst.
Qed.

(** ** The monad *)
Section Monad.
Context {A : arith} {S : Type}.
Definition total {X} (m : M S X) : Prop := forall s, exists x s', m s = LOk (x, s').
Definition panics {X} (m : M S X) : Prop := forall s, exists e, m s = LPanic e.

Lemma total_ret {X} (x : X) : total (mret x).
Proof. intros s. now exists x, s. Qed.
Lemma total_bind {X Y} (m : M S X) (k : X -> M S Y) : total m -> (forall x, total (k x)) -> total (mbind m k).
Proof. intros H K s. destruct (H s) as (x & s' & E). destruct (K x s') as (y & s2 & E2). exists y, s2. unfold mbind. now rewrite E. Qed.
Lemma panics_bind_l {X Y} (m : M S X) (k : X -> M S Y) : panics m -> panics (mbind m k).
Proof. intros H s. destruct (H s) as (e & E). exists e. unfold mbind. now rewrite E. Qed.
Lemma panics_bind_r {X Y} (m : M S X) (k : X -> M S Y) :
  (forall x s s', m s = LOk (x, s') -> exists e, k x s' = LPanic e) -> panics (mbind m k).
Proof.
  intros H s. unfold mbind. destruct (m s) as [[x s']|e] eqn:E; [eapply H; eassumption|eauto].
Qed.
Lemma panics_bind_r' {X Y} (m : M S X) (k : X -> M S Y) : (forall x, panics (k x)) -> panics (mbind m k).
Proof. intros H. apply panics_bind_r. intros x s s' _. apply H. Qed.
Lemma panics_panic {X} e : panics (@mpanic S X e).
Proof. intros s. now exists e. Qed.
Lemma bind_ok {X Y} (m : M S X) (k : X -> M S Y) s r :
  mbind m k s = LOk r -> exists x s', m s = LOk (x, s') /\ k x s' = LOk r.
Proof. unfold mbind. destruct (m s) as [[x s']|]; intros H; try discriminate. eauto. Qed.
Lemma ret_ok {X} (x y : X) (s s' : S) : mret x s = LOk (y, s') -> y = x /\ s' = s.
Proof. unfold mret. intros H. inversion H. auto. Qed.
End Monad.

Create HintDb tot.
#[export] Hint Resolve total_ret total_bind : tot.

(** A backend that never panics. *)
Record total_backend {A : arith} {S : Type} (be : @backend A S) : Prop := {
  tb_kern : forall f1 s1 f2 s2 d, total (be_kern be f1 s1 f2 s2 d);
  tb_metrics : forall s f d m, total (be_metrics be s f d m);
  tb_xheight : forall f d, total (be_xheight be f d);
  tb_underline : forall f d, total (be_underline be f d) }.

(** ** Totality of the layout functions *)
Section Total.
Context {A : arith} {S : Type}.
Variable be : @backend A S.
Hypothesis T : total_backend be.
Notation tnode := (@Box.tnode A).
Notation state := (@Box.state A).

Lemma t_new_char c st m : total (new_char be c st m).
Proof. unfold new_char. apply total_bind; [apply T|intros; apply total_ret]. Qed.
Lemma t_acc_update c : total (acc_update be c).
Proof. unfold acc_update. apply total_bind; [apply T|intros; apply total_ret]. Qed.
Lemma t_kerning t n : total (kerning be t n).
Proof.
  destruct t; cbn [kerning]; try apply total_ret; (apply total_bind; [|intros; apply total_ret]);
  destruct n as [[]|]; first [apply total_ret|apply T].
Qed.
Lemma t_kern_list l : total (kern_list be l).
Proof.
  induction l as [|x l IH]; cbn [kern_list]; [apply total_ret|].
  apply total_bind; [apply t_kerning|]. intros. apply total_bind; [assumption|]. intros. apply total_ret.
Qed.
Lemma t_hlist_of l k : total (hlist_of be l k).
Proof. unfold hlist_of. apply total_bind; [destruct k; [apply t_kern_list|apply total_ret]|intros; apply total_ret]. Qed.
Lemma t_hcentered l : total (hcentered be l). Proof. apply t_hlist_of. Qed.
Lemma t_hrule st t : total (hrule be st t).
Proof. unfold hrule. apply total_bind; [destruct (fltb A t f0); [apply T|apply total_ret]|intros; apply total_ret]. Qed.
Lemma t_mmap {X Y} (f : X -> M S Y) l : (forall x, In x l -> total (f x)) -> total (mmap f l).
Proof.
  induction l as [|x l IH]; intros H; cbn [mmap]; [apply total_ret|].
  apply total_bind; [apply H; now left|]. intros. apply total_bind; [apply IH; intros; apply H; now right|].
  intros. apply total_ret.
Qed.
Lemma t_shrink t : total (shrink be t).
Proof.
  induction t using tnode_ind'; cbn [shrink]; try apply total_ret.
  - apply total_bind; [apply t_acc_update|intros; apply total_ret].
  - apply total_bind; [|intros; apply total_ret]. apply t_mmap. intros x I. rewrite Forall_forall in H. auto.
Qed.

(** Lists and boxes: what VPack accepts. *)
Definition no_char (t : tnode) : Prop := match t with TChar _ | TAccent _ => False | _ => True end.
Lemma vfold_total l : Forall no_char l -> forall d, exists d', vfold l d = LOk d'.
Proof.
  induction 1 as [|x l Hx _ IH]; intros d; cbn [vfold]; [eauto|].
  destruct x; try contradiction; cbn [vpack_dims]; apply IH.
Qed.
Lemma t_vlist_of l : Forall no_char l -> total (vlist_of (S:=S) l).
Proof.
  intros H s. unfold vlist_of, list_of. cbn [vpack]. destruct (vfold_total l H dims0) as (d & E). rewrite E.
  eexists. eexists. reflexivity.
Qed.
Lemma vlist_of_shape (l : list tnode) (s : S) t s' : vlist_of l s = LOk (t, s') -> exists b gs, t = TL KVList b f0 gs l.
Proof.
  unfold vlist_of, list_of. cbn [vpack]. destruct (vfold l dims0) as [d|]; [|discriminate].
  intros H. apply ret_ok in H as [-> _]. eauto.
Qed.
Lemma hlist_of_shape l k s t s' : hlist_of be l k s = LOk (t, s') -> exists b gs l', t = TL KHList b f0 gs l'.
Proof.
  unfold hlist_of. intros H. apply bind_ok in H as (l' & s1 & _ & H). apply ret_ok in H as [-> _].
  unfold list_of. cbn [hpack]. eauto.
Qed.
Lemma set_shift_nochar sh t : no_char t -> no_char (set_shift sh t).
Proof. now destruct t. Qed.
Lemma t_auto c h d st f : total (auto_height_char be c h d st f).
Proof.
  unfold auto_height_char. apply total_bind; [apply T|]. intros. apply total_bind; [apply t_new_char|]. intros.
  apply total_bind.
  - destruct (negb _); [|apply total_ret]. apply total_bind; [apply t_new_char|]. intros. apply total_ret.
  - intros. apply total_bind; [apply t_hlist_of|]. intros. apply total_ret.
Qed.
Lemma total_bind' {X Y} (m : M S X) (k : X -> M S Y) :
  total m -> (forall x s s', m s = LOk (x, s') -> total (k x)) -> total (mbind m k).
Proof.
  intros H K s. destruct (H s) as (x & s' & E). destruct (K x s s' E s') as (y & s2 & E2). exists y, s2.
  unfold mbind. now rewrite E.
Qed.

Lemma t_make_space st p : total (make_space be st p).
Proof. unfold make_space. apply total_bind; [apply T|intros; apply total_ret]. Qed.

Lemma t_genfrac ld rd rule sty num den st : total (genfrac be ld rd rule sty num den st).
Proof.
  unfold genfrac. apply total_bind; [apply T|]. intros th.
  apply total_bind; [destruct sty; [apply total_ret|apply t_shrink]|]. intros n.
  apply total_bind; [destruct sty; [apply total_ret|apply t_shrink]|]. intros d.
  apply total_bind'; [apply t_hcentered|]. intros cn s1 s2 E1. unfold hcentered in E1. apply hlist_of_shape in E1 as (b1 & g1 & l1 & ->).
  apply total_bind'; [apply t_hcentered|]. intros cd s3 s4 E2. unfold hcentered in E2. apply hlist_of_shape in E2 as (b2 & g2 & l2 & ->).
  apply total_bind'; [apply t_hrule|]. intros r s5 s6 E3.
  assert (R : no_char r).
  { unfold hrule in E3. apply bind_ok in E3 as (? & ? & _ & E3). apply ret_ok in E3 as [-> _]. exact I. }
  apply total_bind; [apply t_vlist_of; repeat constructor; exact R|]. intros vl.
  apply total_bind; [apply T|]. intros m.
  apply total_bind; [apply t_hlist_of|]. intros bx.
  destruct (_ || _); [|apply total_ret].
  unfold auto_sized_delimiter.
  apply total_bind; [destruct (negb _); [apply total_bind; [apply t_auto|intros; apply total_ret]|apply total_ret]|]. intros.
  apply total_bind; [destruct (negb _); [apply total_bind; [apply t_auto|intros; apply total_ret]|apply total_ret]|]. intros.
  apply t_hlist_of.
Qed.

Lemma t_vpack h ad lim l b sh gs k : Forall no_char l -> exists t, vpack (A:=A) h ad lim (TL k b sh gs l) = LOk t.
Proof. intros H. cbn [vpack]. destruct (vfold_total l H dims0) as (d & ->). eauto. Qed.

Lemma hrule_no_char st x s r s' : hrule be st x s = LOk (r, s') -> no_char r.
Proof. unfold hrule. intros H. apply bind_ok in H as (? & ? & _ & H). apply ret_ok in H as [-> _]. exact I. Qed.
Lemma hlist_no_char l k s t s' : hlist_of be l k s = LOk (t, s') -> no_char t.
Proof. intros H. apply hlist_of_shape in H as (? & ? & ? & ->). exact I. Qed.

Lemma t_sqrt_box root body st : total (sqrt_box be root body st).
Proof.
  unfold sqrt_box. apply total_bind; [apply T|]. intros th.
  apply total_bind; [apply t_auto|]. intros ck.
  apply total_bind'; [apply t_hlist_of|]. intros pd s1 s2 E1. apply hlist_no_char in E1.
  apply total_bind'; [apply t_hrule|]. intros r s3 s4 E2. apply hrule_no_char in E2.
  apply total_bind'; [apply t_vlist_of; repeat constructor; assumption|].
  intros rh s5 s6 E3. apply vlist_of_shape in E3 as (b & gs & ->).
  apply total_bind.
  { edestruct (t_vpack) as (t & ->); [|apply total_ret]. repeat constructor; assumption. }
  intros rh'. apply total_bind.
  { destruct root; [apply total_bind; [apply t_shrink|intros; apply t_shrink]|apply total_ret]. }
  intros rt. apply total_bind'; [apply t_hlist_of|]. intros inn s7 s8 E4. apply hlist_no_char in E4.
  apply total_bind; [apply t_vlist_of; repeat constructor; assumption|]. intros vl. apply t_hlist_of.
Qed.

Lemma t_overline_box body st : total (overline_box be body st).
Proof.
  unfold overline_box. apply total_bind; [apply T|]. intros th.
  apply total_bind'; [apply t_hrule|]. intros r s3 s4 E2. apply hrule_no_char in E2.
  apply total_bind'; [apply t_hlist_of|]. intros inn s1 s2 E1. apply hlist_no_char in E1.
  apply total_bind'; [apply t_vlist_of; repeat constructor; assumption|].
  intros rh s5 s6 E3. apply vlist_of_shape in E3 as (b & gs & ->).
  apply total_bind.
  { edestruct (t_vpack) as (t & ->); [|apply total_ret]. repeat constructor; assumption. }
  intros rh'. apply t_hlist_of.
Qed.
End Total.
