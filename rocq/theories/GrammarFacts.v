(** The parser is sound and complete for the grammar of Grammar.v. *)
From Coq Require Import ZArith String Ascii List Bool Lia ZifyBool.
From Verif Require Import Utf8 GoScanner Token Lexer Ast MacroTable SymTable Parser
  Utf8Facts LexFacts LexText Grammar Stream ParserFacts.
Import ListNotations.
Local Open Scope string_scope.
Local Open Scope Z_scope.

(** The mode as a boolean. *)
Definition is_math (m : mode) : bool := match m with MathMode => true | Normal => false end.

Definition stop_of (c : closer) : stop :=
  match c with
  | CDollar => StopText "$" | CBrace => StopKind KRbrace
  | CBrack => StopKind KRbrack | CNone => StopNever
  end.

Section WithLetters.
Variable U : Z -> bool.
Notation lex1 := (lex1 U).
Notation snext := (snext U).
Notation pnext := (pnext U).
Notation expect := (expect U).
Notation parse_node := (parse_node U).
Notation parse_loop := (parse_loop U).
Notation parse_script := (parse_script U).
Notation parse_args := (parse_args U).
Notation GNode := (GNode known_macro).
Notation GLoop := (GLoop known_macro).
Notation GScript := (GScript known_macro).
Notation GArgs := (GArgs known_macro).

Notation Lexes := (Lexes U).
Notation EofStep := (EofStep U).
Notation Reads := (Reads U).
Notation Tokens := (Tokens U).

Lemma Lexes_app s xs s1 ys s2 : Lexes s xs s1 -> Lexes s1 ys s2 -> Lexes s (xs ++ ys) s2.
Proof. induction 1; cbn; [auto|]. intros H2. econstructor; eauto. Qed.

Lemma Lexes_app_inv s xs ys s2 :
  Lexes s (xs ++ ys) s2 -> exists s1, Lexes s xs s1 /\ Lexes s1 ys s2.
Proof.
  revert s; induction xs as [|x xs IH]; cbn; intros s H.
  - exists s. split; [constructor|assumption].
  - inv H. apply IH in H6 as (s1' & A & B). exists s1'. split; [econstructor; eauto|assumption].
Qed.

Lemma eof_again s s' : EofStep s s' -> EofStep s' s'.
Proof.
  intros (x & H & K). eexists. split; [eapply lex1_eof_again; eassumption|reflexivity].
Qed.

Lemma eof_det s s1 s2 : EofStep s s1 -> EofStep s s2 -> s1 = s2.
Proof. intros (x & H & _) (y & H' & _). congruence. Qed.

Lemma eof_rest s s' : EofStep s s' -> l_rest s' = [].
Proof. intros (x & H & K). apply lex1_split in H as (_ & _ & _ & _ & _ & N & _). now apply N. Qed.

Lemma eof_nil_lexes s s' xs s2 : EofStep s s' -> Lexes s' xs s2 -> xs = [] /\ s2 = s'.
Proof.
  intros E H. apply eof_again in E as (x & E & K). inv H; [auto|].
  exfalso. rewrite E in H0. inv H0. contradiction.
Qed.

Lemma Reads_app s xs o1 s1 ys o2 s2 :
  Reads s xs o1 s1 -> Reads s1 ys o2 s2 ->
  (o1 = true -> ys = []) /\ Reads s (xs ++ ys) (o1 || o2) s2.
Proof.
  intros (t1 & L1 & E1) (t2 & L2 & E2). destruct o1.
  - pose proof (eof_nil_lexes _ _ _ _ E1 L2) as [-> ->]. split; [auto|].
    rewrite app_nil_r. exists t1. split; [assumption|]. cbn.
    destruct o2; [|now subst].
    now rewrite (eof_det _ _ _ E2 (eof_again _ _ E1)).
  - subst t1. split; [discriminate|]. exists t2. split; [|exact E2].
    eapply Lexes_app; eassumption.
Qed.

Lemma Reads_split s xs ys o1 o2 s2 :
  Reads s (xs ++ ys) o2 s2 -> (o1 = true -> ys = [] /\ o2 = true) ->
  exists s1, Reads s xs o1 s1 /\ Reads s1 ys o2 s2.
Proof.
  intros (t & L & E) H. destruct o1.
  - destruct (H eq_refl) as [-> ->]. rewrite app_nil_r in L.
    exists s2. split; [exists t; auto|]. exists s2. split; [constructor|].
    exact (eof_again _ _ E).
  - apply Lexes_app_inv in L as (s1 & L1 & L2). exists s1.
    split; [exists s1; auto|exists t; auto].
Qed.

Lemma Lexes_wf s xs s' : wf_ls s -> Lexes s xs s' -> wf_ls s'.
Proof. intros W H; induction H; auto. apply IHLexes. eapply lex1_wf; eassumption. Qed.

Lemma Reads_wf s xs o s' : wf_ls s -> Reads s xs o s' -> wf_ls s'.
Proof.
  intros W (t & L & E). apply (Lexes_wf _ _ _ W) in L. destruct o; [|now subst].
  destruct E as (x & E & _). eapply lex1_wf; eassumption.
Qed.

(** What Peek sees after a sequence of tokens. *)
Lemma Lexes_peek s xs s' pk :
  Lexes s xs s' -> xs <> [] -> peek (l_rest s') = peek_after pk xs.
Proof.
  intros H; induction H as [|s x s1 xs s2 L K H IH]; [congruence|]. intros _.
  unfold peek_after in *. cbn [rev].
  destruct xs as [|y xs].
  - inv H. cbn. symmetry. now apply lex1_split in L as (_ & _ & _ & _ & P & _).
  - specialize (IH ltac:(discriminate)). rewrite IH.
    destruct (rev (y :: xs)) as [|z zs] eqn:R; [|reflexivity].
    apply (f_equal (@List.length _)) in R. rewrite rev_length in R. discriminate.
Qed.

Lemma Reads_peek s xs o s' pk :
  Reads s xs o s' -> xs <> [] ->
  peek (l_rest s') = if o then -1 else peek_after pk xs.
Proof.
  intros (t & L & E) N. destruct o.
  - now rewrite (eof_rest _ _ E).
  - subst. eapply Lexes_peek; eassumption.
Qed.

(** Next, seen through lexemes. *)
Lemma snext_ok p ok p1 :
  snext p = Ok (ok, p1) ->
  p_mode p1 = p_mode p /\
  exists x, lex1 (p_lex p) = LexOk x (p_lex p1) /\ p_tok p1 = x_tok x /\
            x_peek x = p_peek p1 /\
            (ok = true <-> xk x <> KEOF).
Proof.
  unfold Parser.snext. destruct (lex1 (p_lex p)) as [x s|r] eqn:E; [|discriminate].
  intros H; inv H. cbn. split; [reflexivity|]. exists x. repeat split; auto.
  - now apply lex1_split in E as (_ & _ & _ & _ & P & _).
  - intros K. now apply negb_true_iff, kind_beq_neq in K.
  - intros K. now apply negb_true_iff, kind_beq_neq.
Qed.

Lemma closes_stops c x : tok_shape U (x_tok x) ->
  (stops (stop_of c) (x_tok x) = true <-> closes c x).
Proof.
  intros S. destruct c; cbn; unfold xk, xt.
  - rewrite String.eqb_eq. split; [|tauto]. intros E. split; [|assumption].
    eapply shape_dollar; eassumption.
  - apply kind_beq_eq.
  - apply kind_beq_eq.
  - split; [discriminate|contradiction].
Qed.

Lemma expect_ok v k p p1 :
  (forall t, tok_shape U t -> (t_text t = v <-> t_kind t = k)) -> k <> KEOF ->
  wf_ls (p_lex p) -> expect v p = Ok p1 ->
  p_mode p1 = p_mode p /\
  exists x, lex1 (p_lex p) = LexOk x (p_lex p1) /\ p_tok p1 = x_tok x /\
            x_peek x = p_peek p1 /\ xk x = k.
Proof.
  intros Hk NK W. unfold Parser.expect, Parser.pnext. intros H.
  apply bind_ok in H as ([t p2] & H1 & H). apply bind_ok in H1 as ([ok p3] & H1 & H2).
  assert (p2 = p3) by (destruct ok; congruence). subst p3. clear H2.
  destruct (String.eqb_spec (t_text (p_tok p2)) v) as [E|]; [|discriminate]. injection H as <-.
  apply snext_ok in H1 as (M & x & L & T & P & _). split; [assumption|].
  exists x. repeat split; auto. rewrite T in E.
  apply Hk in E; [exact E|]. eapply lex1_shape; eassumption.
Qed.

(** Soundness: a successful parse yields a derivation for the tokens read. *)
Lemma parse_sound n :
  (forall x p nd p', parse_node n (x_tok x) p = Ok (nd, p') ->
     wf_ls (p_lex p) -> p_tok p = x_tok x -> x_peek x = p_peek p ->
     p_mode p' = p_mode p /\
     exists xs o, Reads (p_lex p) xs o (p_lex p') /\
                  GNode (is_math (p_mode p)) (x :: xs) nd o) /\
  (forall c p ns r p', parse_loop n (stop_of c) p = Ok (ns, r, p') ->
     wf_ls (p_lex p) ->
     p_mode p' = p_mode p /\
     exists xs o, Reads (p_lex p) xs o (p_lex p') /\
                  GLoop (is_math (p_mode p)) c xs ns r o) /\
  (forall p nd p', parse_script n p = Ok (nd, p') ->
     wf_ls (p_lex p) ->
     p_mode p' = p_mode p /\
     exists xs o, Reads (p_lex p) xs o (p_lex p') /\
                  GScript (is_math (p_mode p)) (p_peek p) xs nd o) /\
  (forall sig p args p', parse_args n sig p = Ok (args, p') ->
     wf_ls (p_lex p) ->
     p_mode p' = p_mode p /\
     exists xs o, Reads (p_lex p) xs o (p_lex p') /\
                  GArgs (is_math (p_mode p)) (p_peek p) (sig_slots sig) xs args o).
Proof.
  induction n as [|n (IHn & IHl & IHs & IHa)]; [repeat split; discriminate|].
  assert (RN : forall p, Reads (p_lex p) [] false (p_lex p))
    by (intros p; exists (p_lex p); split; [constructor|reflexivity]).
  split; [|split; [|split]].
  - intros x p nd p' H W T P. revert H. rewrite parse_node_S. rewrite T.
    fold (xk x) (xt x) (xp x).
    assert (Leaf : forall nd0, Ok (nd0, p) = Ok (nd, p') ->
       GNode (is_math (p_mode p)) [x] nd0 false ->
       p_mode p' = p_mode p /\ exists xs o, Reads (p_lex p) xs o (p_lex p') /\
                  GNode (is_math (p_mode p)) (x :: xs) nd o).
    { intros nd0 E G. inv E. split; [reflexivity|]. exists [], false. auto. }
    destruct (xk x) eqn:K; try discriminate;
      try (intros H; eapply Leaf; [exact H|]; constructor; tauto).
    + (* macro *)
      destruct (lookup_macro (xt x)) as [[sig|]|] eqn:E; try discriminate.
      intros H. apply bind_ok in H as ([args p1] & H & E1). inv E1.
      apply IHa in H as (M & xs & o & R & G); [|assumption].
      split; [assumption|]. exists xs, o. split; [assumption|].
      apply G_macro with (sg := sig_slots sig); [assumption| |now rewrite P].
      unfold known_macro. now rewrite E.
    + (* space *)
      destruct (p_mode p) eqn:M; intros H; eapply Leaf; try exact H; now constructor.
    + (* symbol *)
      destruct (String.eqb_spec (xt x) "$") as [E|N1].
      { intros H. apply bind_ok in H as ([[ns rt] p1] & H & E1).
        injection E1 as <- <-.
        apply (IHl CDollar) in H as (M & xs & o & R & G); [|assumption].
        cbn [set_mode p_mode p_lex] in *. split; [reflexivity|].
        exists xs, o. split; [assumption|]. rewrite E. now apply G_math. }
      destruct (String.eqb_spec (xt x) "^") as [E|N2].
      { intros H. apply bind_ok in H as ([nd1 p1] & H & E1). inv E1.
        apply IHs in H as (M & xs & o & R & G); [|assumption].
        split; [assumption|]. exists xs, o. split; [assumption|].
        apply G_sup; auto. now rewrite P. }
      destruct (String.eqb_spec (xt x) "_") as [E|N3].
      { intros H. apply bind_ok in H as ([nd1 p1] & H & E1). inv E1.
        apply IHs in H as (M & xs & o & R & G); [|assumption].
        split; [assumption|]. exists xs, o. split; [assumption|].
        apply G_sub; auto. now rewrite P. }
      intros H; eapply Leaf; [exact H|]. now apply G_symbol.
    + (* brace *)
      destruct (p_mode p) eqn:M; [discriminate|].
      intros H. apply bind_ok in H as ([[ns rt] p1] & H & E1). inv E1.
      apply (IHl CBrace) in H as (M' & xs & o & R & G); [|assumption].
      rewrite M in *. split; [assumption|]. exists xs, o. split; [assumption|].
      eapply G_group; eassumption.
  - intros c p ns r p' H W. rewrite parse_loop_S in H.
    apply bind_ok in H as ([ok p1] & S & H).
    apply snext_ok in S as (M & x & L & T & P & K).
    destruct ok.
    + assert (NE : xk x <> KEOF) by (now apply K).
      pose proof (lex1_shape _ _ _ _ W L) as Sh.
      pose proof (lex1_wf _ _ _ _ W L) as W1.
      destruct (stops (stop_of c) (p_tok p1)) eqn:St.
      * inv H. rewrite T in St. apply closes_stops in St; [|assumption].
        split; [assumption|]. exists [x], false. split.
        { exists (p_lex p'). split; [|reflexivity]. econstructor; [eassumption|assumption|constructor]. }
        rewrite T. now apply L_close.
      * apply bind_ok in H as ([nd p2] & H1 & H). apply bind_ok in H as ([[ns' r'] p3] & H2 & H).
        injection H as <- <- <-. rewrite T in H1.
        apply IHn in H1 as (M2 & xs & o & R & G); auto.
        assert (W2 : wf_ls (p_lex p2)) by (eapply Reads_wf; eassumption).
        apply IHl in H2 as (M3 & ys & o' & R' & G'); auto.
        pose proof (Reads_app _ _ _ _ _ _ _ R R') as (Ho & RR).
        split; [congruence|]. exists (x :: xs ++ ys), (o || o').
        assert (Oo : o || o' = o').
        { destruct o; [|reflexivity]. rewrite (Ho eq_refl) in G'. inv G'; reflexivity. }
        split.
        { destruct RR as (t & L1 & E1). exists t. split; [econstructor; eauto|exact E1]. }
        rewrite Oo. rewrite M2, M in G'. rewrite M in G.
        apply L_node with (o := o); auto.
        intros Cl. apply closes_stops in Cl; [|assumption]. rewrite T in St. congruence.
    + inv H. split; [assumption|]. exists [], true. split; [|constructor].
      exists (p_lex p). split; [constructor|]. exists x. split; [assumption|].
      destruct (kind_beq (xk x) KEOF) eqn:B; [now apply kind_beq_eq|].
      apply kind_beq_neq in B. apply K in B. discriminate.
  - intros p nd p' H W. rewrite parse_script_S in H.
    destruct (Z.eqb_spec (p_peek p) 123) as [Pk|Pk].
    + apply bind_ok in H as (p1 & E & H).
      apply (expect_ok _ KLbrace _ _ (shape_lbrace U)) in E as (M & x & L & T & P & K); [|discriminate|assumption].
      pose proof (lex1_wf _ _ _ _ W L) as W1.
      apply bind_ok in H as ([[ns rt] p2] & H & E1). inv E1.
      apply (IHl CBrace) in H as (M' & xs & o & R & G); [|assumption].
      split; [congruence|]. exists (x :: xs), o. split.
      { destruct R as (t & L1 & E1). exists t. split; [econstructor; eauto; congruence|exact E1]. }
      rewrite M in G. eapply S_group; eassumption.
    + apply bind_ok in H as ([t p1] & E & H).
      unfold Parser.pnext in E. apply bind_ok in E as ([ok p2] & S & E).
      apply snext_ok in S as (M & x & L & T & P & K).
      destruct ok.
      * inv E. assert (NE : xk x <> KEOF) by (now apply K).
        pose proof (lex1_wf _ _ _ _ W L) as W1. rewrite T in H.
        apply IHn in H as (M2 & xs & o & R & G); auto.
        split; [congruence|]. exists (x :: xs), o. split.
        { destruct R as (t & L1 & E1). exists t. split; [econstructor; eauto|exact E1]. }
        rewrite M in G. now apply S_node.
      * inv E. destruct n; [discriminate|]. rewrite parse_node_S in H. discriminate.
  - intros sig p args p' H W. rewrite parse_args_S in H.
    destruct sig as [|ch sig].
    { inv H. split; [reflexivity|]. exists [], false. split; [auto|constructor]. }
    destruct (sig_cases ch) as [Ec | [Ec | [N1 N2]]].
    + cbn [sig_slots]. rewrite Ec in *.
      apply bind_ok in H as (p1 & E & H).
      apply (expect_ok _ KLbrace _ _ (shape_lbrace U)) in E as (M & x & L & T & P & K); [|discriminate|assumption].
      pose proof (lex1_wf _ _ _ _ W L) as W1.
      apply bind_ok in H as ([[ns rt] p2] & H1 & H).
      apply bind_ok in H as ([args' p3] & H2 & E1). injection E1 as <- <-.
      apply (IHl CBrace) in H1 as (M' & xs & o & R & G); [|assumption].
      assert (R1 : Reads (p_lex p) (x :: xs) o (p_lex p2)).
      { destruct R as (t & L1 & E1). exists t. split; [econstructor; eauto; congruence|exact E1]. }
      assert (W2 : wf_ls (p_lex p2)) by (eapply Reads_wf; eassumption).
      apply IHa in H2 as (M'' & ys & o' & R' & G'); [|assumption].
      pose proof (Reads_app _ _ _ _ _ _ _ R1 R') as (Ho & RR).
      split; [congruence|]. exists (x :: xs ++ ys), (o || o'). split; [assumption|].
      rewrite T. fold (xp x). apply A_req; auto; try congruence.
      unfold p_peek in G'. rewrite (Reads_peek _ _ _ _ 0 R1) in G' by discriminate.
      now rewrite M', M in G'.
    + cbn [sig_slots]. rewrite Ec in *.
      destruct (Z.eqb_spec (p_peek p) 91) as [Pk|Pk].
      * apply bind_ok in H as (p1 & E & H).
        apply (expect_ok _ KLbrack _ _ (shape_lbrack U)) in E as (M & x & L & T & P & K); [|discriminate|assumption].
        pose proof (lex1_wf _ _ _ _ W L) as W1.
        apply bind_ok in H as ([[ns rt] p2] & H1 & H).
        apply bind_ok in H as ([args' p3] & H2 & E1). injection E1 as <- <-.
        apply (IHl CBrack) in H1 as (M' & xs & o & R & G); [|assumption].
        assert (R1 : Reads (p_lex p) (x :: xs) o (p_lex p2)).
        { destruct R as (t & L1 & E1). exists t. split; [econstructor; eauto; congruence|exact E1]. }
        assert (W2 : wf_ls (p_lex p2)) by (eapply Reads_wf; eassumption).
        apply IHa in H2 as (M'' & ys & o' & R' & G'); [|assumption].
        pose proof (Reads_app _ _ _ _ _ _ _ R1 R') as (Ho & RR).
        split; [congruence|]. exists (x :: xs ++ ys), (o || o'). split; [assumption|].
        rewrite T. fold (xp x). apply A_opt; auto; try congruence.
        unfold p_peek in G'. rewrite (Reads_peek _ _ _ _ 0 R1) in G' by discriminate.
        now rewrite M', M in G'.
      * apply IHa in H as (M & xs & o & R & G); [|assumption].
        split; [assumption|]. exists xs, o. split; [assumption|]. now apply A_noopt.
    + rewrite ascii_match in H by assumption.
      cbn [sig_slots]. rewrite ascii_match by assumption. eauto.
Qed.

(* ------------------------------------------------------------------ *)
(** ** Completeness *)

Lemma snext_of_lex p x s :
  lex1 (p_lex p) = LexOk x s ->
  snext p = Ok (negb (kind_beq (xk x) KEOF), mk_ps s (x_tok x) (p_mode p)).
Proof. intros H. unfold Parser.snext. rewrite H. reflexivity. Qed.

Lemma expect_of_lex v k p x s :
  (forall t, tok_shape U t -> (t_text t = v <-> t_kind t = k)) -> k <> KEOF ->
  wf_ls (p_lex p) -> lex1 (p_lex p) = LexOk x s -> xk x = k ->
  expect v p = Ok (mk_ps s (x_tok x) (p_mode p)).
Proof.
  intros Hk NK W L K. unfold Parser.expect, Parser.pnext.
  rewrite (snext_of_lex _ _ _ L). rewrite K.
  replace (kind_beq k KEOF) with false by (symmetry; now apply kind_beq_neq).
  cbn [negb bind p_tok].
  replace (String.eqb (t_text (x_tok x)) v) with true; [reflexivity|].
  symmetry. apply String.eqb_eq. apply Hk; [eapply lex1_shape; eassumption|exact K].
Qed.

(** A parse result for all large enough fuel. *)
Definition eventually {A} (f : nat -> res A) (a : A) : Prop :=
  exists n0, forall n, (n0 <= n)%nat -> f n = Ok a.

Lemma ev_S {A} (f : nat -> res A) a : eventually (fun n => f (S n)) a -> eventually f a.
Proof.
  intros (n0 & H). exists (S n0). intros [|n] L; [lia|]. apply H. lia.
Qed.

Lemma ev_bind {A B} (f : nat -> res A) (g : nat -> A -> res B) a b :
  eventually f a -> eventually (fun n => g n a) b ->
  eventually (fun n => bind (f n) (g n)) b.
Proof.
  intros (n0 & H0) (n1 & H1). exists (n0 + n1)%nat. intros n L.
  rewrite H0 by lia. cbn. apply H1. lia.
Qed.

Lemma ev_ret {A} (a : A) : eventually (fun _ => Ok a) a.
Proof. exists O. reflexivity. Qed.

Lemma ev_ext {A} (f g : nat -> res A) a :
  (forall n, f n = g n) -> eventually g a -> eventually f a.
Proof. intros E (n0 & H). exists n0. intros n L. rewrite E. auto. Qed.

(** What a derivation promises about the parser started on its tokens. *)
Definition NodeRuns (m : bool) (xs : list lexeme) (nd : node) (o : bool) : Prop :=
  exists x xs', xs = x :: xs' /\
  forall p s', is_math (p_mode p) = m -> p_tok p = x_tok x -> p_peek p = x_peek x ->
    wf_ls (p_lex p) -> Reads (p_lex p) xs' o s' ->
    exists t, eventually (fun n => parse_node n (x_tok x) p) (nd, mk_ps s' t (p_mode p)).
Definition LoopRuns (m : bool) (c : closer) (xs : list lexeme) (ns : list node) (r : Z) (o : bool)
  : Prop :=
  forall p s', is_math (p_mode p) = m -> wf_ls (p_lex p) -> Reads (p_lex p) xs o s' ->
    exists t, eventually (fun n => parse_loop n (stop_of c) p) (ns, r, mk_ps s' t (p_mode p)).
Definition ScriptRuns (m : bool) (pk : Z) (xs : list lexeme) (nd : node) (o : bool) : Prop :=
  forall p s', is_math (p_mode p) = m -> p_peek p = pk ->
    wf_ls (p_lex p) -> Reads (p_lex p) xs o s' ->
    exists t, eventually (fun n => parse_script n p) (nd, mk_ps s' t (p_mode p)).
Definition ArgsRuns (m : bool) (pk : Z) (sg : list slot) (xs : list lexeme) (args : list node)
  (o : bool) : Prop :=
  forall sig p s', sig_slots sig = sg -> is_math (p_mode p) = m -> p_peek p = pk ->
    wf_ls (p_lex p) -> Reads (p_lex p) xs o s' ->
    exists t, eventually (fun n => parse_args n sig p) (args, mk_ps s' t (p_mode p)).

Lemma GLoop_nil m c ns r o : GLoop m c [] ns r o -> ns = [] /\ r = 0 /\ o = true.
Proof. intros H; inv H. auto. Qed.

Lemma GNode_ne m xs nd o : GNode m xs nd o -> xs <> [].
Proof. intros H; inv H; discriminate. Qed.

Lemma GArgs_nil_closed m pk sg args o : GArgs m pk sg [] args o -> o = false.
Proof.
  remember (@nil lexeme) as xs eqn:E. intros H; revert E; induction H; intros E; auto; discriminate.
Qed.

Lemma Reads_cons s x xs o s' :
  Reads s (x :: xs) o s' <->
  exists s1, lex1 s = LexOk x s1 /\ xk x <> KEOF /\ Reads s1 xs o s'.
Proof.
  split.
  - intros (t & L & E). inv L. exists s1. repeat split; auto. exists t; auto.
  - intros (s1 & L & K & t & L1 & E). exists t. split; [econstructor; eauto|exact E].
Qed.

Lemma Reads_nil_false s s' : Reads s [] false s' -> s' = s.
Proof. intros (t & L & E). inv L. reflexivity. Qed.

Lemma p_eta p t : p_tok p = t -> p = mk_ps (p_lex p) t (p_mode p).
Proof. destruct p; cbn; congruence. Qed.

Lemma leaf_runs m x nd :
  (forall n p, is_math (p_mode p) = m -> p_tok p = x_tok x ->
     parse_node (S n) (x_tok x) p = Ok (nd, p)) ->
  NodeRuns m [x] nd false.
Proof.
  intros H. exists x, []. split; [reflexivity|].
  intros p s' M T P W R. apply Reads_nil_false in R. subst s'.
  exists (x_tok x). apply ev_S. exists O. intros n _. rewrite H by assumption.
  now rewrite <- (p_eta p) by assumption.
Qed.

Lemma sig_slots_skip sig sg :
  sig_slots sig = sg ->
  forall P : string -> Prop,
  (forall sig', sig_slots sig' = sg ->
     match sig' with
     | EmptyString => True
     | String c _ => lower_ascii c = "a"%char \/ lower_ascii c = "o"%char
     end -> P sig') ->
  (forall c sig', lower_ascii c <> "a"%char -> lower_ascii c <> "o"%char ->
     P sig' -> P (String c sig')) ->
  P sig.
Proof.
  intros H P H1 H2. induction sig as [|c sig IH].
  - apply H1; auto.
  - destruct (sig_cases c) as [E|[E|[N1 N2]]].
    + apply H1; auto.
    + apply H1; auto.
    + apply H2; auto. apply IH. cbn [sig_slots] in H. now rewrite ascii_match in H.
Qed.

Lemma args_skip c sig p : lower_ascii c <> "a"%char -> lower_ascii c <> "o"%char ->
  forall a, eventually (fun n => parse_args n sig p) a ->
            eventually (fun n => parse_args n (String c sig) p) a.
Proof.
  intros N1 N2 a H. apply ev_S. eapply ev_ext; [|exact H].
  intros n. rewrite parse_args_S. now rewrite ascii_match.
Qed.

Lemma args_split s x xs o ys o' s' m pk sg args :
  Reads s (x :: xs ++ ys) (o || o') s' -> (o = true -> ys = []) ->
  GArgs m pk sg ys args o' ->
  exists s1 s2, lex1 s = LexOk x s1 /\ xk x <> KEOF /\ Reads s1 xs o s2 /\
    Reads s (x :: xs) o s2 /\ Reads s2 ys o' s'.
Proof.
  intros R Ho G'. change (x :: xs ++ ys)%list with ((x :: xs) ++ ys)%list in R.
  apply (Reads_split _ _ _ o) in R as (s2 & R1 & R2); [|intros E; rewrite E; auto].
  pose proof R1 as R1'. apply Reads_cons in R1 as (s1 & L & K' & R1).
  exists s1, s2. repeat split; auto.
  destruct o; [|exact R2]. rewrite (Ho eq_refl) in *. apply GArgs_nil_closed in G'. subst o'.
  destruct R2 as (t & Lt & Et). inv Lt. destruct R1 as (t1 & L1 & E1).
  exists t. split; [constructor|]. exact (eof_det _ _ _ Et (eof_again _ _ E1)).
Qed.

Lemma parse_complete :
  (forall m xs nd o, GNode m xs nd o -> NodeRuns m xs nd o) /\
  (forall m c xs ns r o, GLoop m c xs ns r o -> LoopRuns m c xs ns r o) /\
  (forall m pk xs nd o, GScript m pk xs nd o -> ScriptRuns m pk xs nd o) /\
  (forall m pk sg xs args o, GArgs m pk sg xs args o -> ArgsRuns m pk sg xs args o).
Proof.
  apply (G_mutind known_macro).
  - (* comment *) intros m x K. apply leaf_runs. intros n p M T.
    rewrite parse_node_S. fold (xk x). now rewrite K.
  - intros x K. apply leaf_runs. intros n p M T.
    rewrite parse_node_S. fold (xk x). rewrite K. now destruct (p_mode p).
  - intros x K. apply leaf_runs. intros n p M T.
    rewrite parse_node_S. fold (xk x). rewrite K. now destruct (p_mode p).
  - intros m x K. apply leaf_runs. intros n p M T.
    rewrite parse_node_S. fold (xk x). now rewrite K.
  - intros m x K. apply leaf_runs. intros n p M T.
    rewrite parse_node_S. fold (xk x). now rewrite K.
  - intros m x K N1 N2 N3. apply leaf_runs. intros n p M T.
    rewrite parse_node_S. fold (xk x) (xt x) (xp x). rewrite K.
    destruct (String.eqb_spec (xt x) "$"); [contradiction|].
    destruct (String.eqb_spec (xt x) "^"); [contradiction|].
    destruct (String.eqb_spec (xt x) "_"); [contradiction|]. reflexivity.
  - intros m x K. apply leaf_runs. intros n p M T.
    rewrite parse_node_S. fold (xk x). now destruct K as [-> | [-> | [-> | ->]]].
  - (* math *)
    intros m x xs ns c o K E _ IH. exists x, xs. split; [reflexivity|].
    intros p s' M T P W R.
    destruct (IH (set_mode MathMode p) s') as (t & Ev); auto.
    exists t. apply ev_S. eapply ev_ext.
    { intros n. rewrite parse_node_S. fold (xk x) (xt x) (xp x). rewrite K, E. reflexivity. }
    cbn [String.eqb]. eapply ev_bind; [exact Ev|]. apply ev_ret.
  - (* group *)
    intros x xs ns c o K _ IH. exists x, xs. split; [reflexivity|].
    intros p s' M T P W R. destruct (IH p s') as (t & Ev); auto.
    exists t. apply ev_S. eapply ev_ext.
    { intros n. rewrite parse_node_S. fold (xk x). rewrite K. reflexivity. }
    destruct (p_mode p); [discriminate|]. eapply ev_bind; [exact Ev|]. apply ev_ret.
  - (* sup *)
    intros m x xs nd o K E _ IH. exists x, xs. split; [reflexivity|].
    intros p s' M T P W R. destruct (IH p s') as (t & Ev); auto.
    exists t. apply ev_S. eapply ev_ext.
    { intros n. rewrite parse_node_S. fold (xk x) (xt x) (xp x). rewrite K, E. reflexivity. }
    cbn [String.eqb]. eapply ev_bind; [exact Ev|]. apply ev_ret.
  - (* sub *)
    intros m x xs nd o K E _ IH. exists x, xs. split; [reflexivity|].
    intros p s' M T P W R. destruct (IH p s') as (t & Ev); auto.
    exists t. apply ev_S. eapply ev_ext.
    { intros n. rewrite parse_node_S. fold (xk x) (xt x) (xp x). rewrite K, E. reflexivity. }
    cbn [String.eqb]. eapply ev_bind; [exact Ev|]. apply ev_ret.
  - (* macro *)
    intros m x xs sg args o K E _ IH. exists x, xs. split; [reflexivity|].
    intros p s' M T P W R. unfold known_macro in E.
    destruct (lookup_macro (xt x)) as [[sig|]|] eqn:El; try discriminate. injection E as E.
    destruct (IH sig p s') as (t & Ev); auto.
    exists t. apply ev_S. eapply ev_ext.
    { intros n. rewrite parse_node_S. fold (xk x) (xt x) (xp x). rewrite K, El. reflexivity. }
    rewrite T. eapply ev_bind; [exact Ev|]. apply ev_ret.
  - (* loop: end *)
    intros m c p s' M W R. destruct R as (t & L & E). inv L. destruct E as (x & L & K).
    exists (x_tok x). apply ev_S. eapply ev_ext.
    { intros n. rewrite parse_loop_S, (snext_of_lex _ _ _ L), K. reflexivity. }
    apply ev_ret.
  - (* loop: close *)
    intros m c x Cl p s' M W R. apply Reads_cons in R as (s1 & L & K & R).
    apply Reads_nil_false in R. subst s1. exists (x_tok x). apply ev_S. eapply ev_ext.
    { intros n. rewrite parse_loop_S, (snext_of_lex _ _ _ L).
      apply kind_beq_neq in K. rewrite K. cbn [negb bind p_tok].
      apply closes_stops in Cl; [|eapply lex1_shape; eassumption]. rewrite Cl. reflexivity. }
    apply ev_ret.
  - (* loop: node *)
    intros m c x xs nd o ys ns r o' NC G IHn Ho G' IHl p s' M W R.
    apply Reads_cons in R as (s1 & L & K & R).
    apply (Reads_split _ _ _ o) in R as (s2 & R1 & R2).
    2:{ intros E. split; [auto|]. rewrite (Ho E) in G'. now apply GLoop_nil in G'. }
    destruct IHn as (x0 & xs0 & E0 & IHn). injection E0 as <- <-.
    pose proof (lex1_wf _ _ _ _ W L) as W1.
    destruct (IHn (mk_ps s1 (x_tok x) (p_mode p)) s2) as (t1 & Ev1); auto.
    { symmetry. now apply lex1_split in L as (_ & _ & _ & _ & P & _). }
    destruct (IHl (mk_ps s2 t1 (p_mode p)) s') as (t2 & Ev2); auto.
    { eapply Reads_wf; eassumption. }
    exists t2. apply ev_S. eapply ev_ext.
    { intros n. rewrite parse_loop_S, (snext_of_lex _ _ _ L).
      apply kind_beq_neq in K. rewrite K. cbn [negb bind p_tok].
      assert (St : stops (stop_of c) (x_tok x) = false).
      { destruct (stops (stop_of c) (x_tok x)) eqn:St; [|reflexivity].
        apply closes_stops in St; [contradiction|]. exact (lex1_shape _ _ _ _ W L). }
      rewrite St. reflexivity. }
    eapply ev_bind; [exact Ev1|]. cbv beta iota.
    eapply ev_bind; [exact Ev2|]. apply ev_ret.
  - (* script: group *)
    intros m pk x xs ns c o -> K _ IH p s' M P W R.
    apply Reads_cons in R as (s1 & L & K' & R).
    pose proof (lex1_wf _ _ _ _ W L) as W1.
    destruct (IH (mk_ps s1 (x_tok x) (p_mode p)) s') as (t & Ev); auto.
    exists t. apply ev_S. eapply ev_ext.
    { intros n. rewrite parse_script_S, P. change (123 =? 123) with true. cbv iota.
      rewrite (expect_of_lex "{" KLbrace p x s1 (shape_lbrace U)) by (assumption || discriminate).
      reflexivity. }
    cbn [bind]. eapply ev_bind; [exact Ev|]. apply ev_ret.
  - (* script: node *)
    intros m pk x xs nd o Pk _ IH p s' M P W R.
    apply Reads_cons in R as (s1 & L & K' & R).
    pose proof (lex1_wf _ _ _ _ W L) as W1.
    destruct IH as (x0 & xs0 & E0 & IH). injection E0 as <- <-.
    destruct (IH (mk_ps s1 (x_tok x) (p_mode p)) s') as (t & Ev); auto.
    { symmetry. now apply lex1_split in L as (_ & _ & _ & _ & P' & _). }
    exists t. apply ev_S. eapply ev_ext.
    { intros n. rewrite parse_script_S, P. rewrite (proj2 (Z.eqb_neq pk 123) Pk).
      unfold Parser.pnext. rewrite (snext_of_lex _ _ _ L).
      apply kind_beq_neq in K'. rewrite K'. reflexivity. }
    exact Ev.
  - (* args: none *)
    intros m pk sig p s' Sg M P W R. apply Reads_nil_false in R. subst s'.
    exists (p_tok p). destruct p as [pl pt pm]; cbn [p_tok p_lex p_mode] in *.
    apply (sig_slots_skip sig [] Sg).
    + intros [|c sig'] E H; [apply ev_S; eapply ev_ext; [|apply ev_ret]; reflexivity|].
      cbn [sig_slots] in E. destruct H as [H|H]; rewrite H in E; discriminate.
    + intros c sig' N1 N2 Ev. now apply args_skip.
  - (* args: required *)
    intros m pk sg x xs ns c o ys args o' K G IHl Ho G' IHa sig p s' Sg M P W R.
    destruct (args_split _ _ _ _ _ _ _ _ _ _ _ R Ho G') as (s1 & s2 & L & K' & R1 & R1' & R2).
    pose proof (lex1_wf _ _ _ _ W L) as W1.
    destruct (IHl (mk_ps s1 (x_tok x) (p_mode p)) s2) as (t1 & Ev1); auto.
    apply (sig_slots_skip sig _ Sg).
    2:{ intros ch sig' N1 N2 (t & Ev). exists t. now apply args_skip. }
    intros [|ch sig'] E H; [discriminate|].
    cbn [sig_slots] in E. destruct H as [H|H]; rewrite H in E; [|discriminate].
    injection E as E.
    destruct (IHa sig' (mk_ps s2 t1 (p_mode p)) s') as (t2 & Ev2); auto.
    { unfold p_peek; cbn [p_lex]. apply (Reads_peek _ _ _ _ 0 R1'). discriminate. }
    { eapply Reads_wf; eassumption. }
    exists t2. apply ev_S. eapply ev_ext.
    { intros n. rewrite parse_args_S, H.
      rewrite (expect_of_lex "{" KLbrace p x s1 (shape_lbrace U)) by (assumption || discriminate).
      reflexivity. }
    cbn [bind]. eapply ev_bind; [exact Ev1|]. cbv beta iota.
    eapply ev_bind; [exact Ev2|]. apply ev_ret.
  - (* args: optional, present *)
    intros m pk sg x xs ns c o ys args o' -> K G IHl Ho G' IHa sig p s' Sg M P W R.
    destruct (args_split _ _ _ _ _ _ _ _ _ _ _ R Ho G') as (s1 & s2 & L & K' & R1 & R1' & R2).
    pose proof (lex1_wf _ _ _ _ W L) as W1.
    destruct (IHl (mk_ps s1 (x_tok x) (p_mode p)) s2) as (t1 & Ev1); auto.
    apply (sig_slots_skip sig _ Sg).
    2:{ intros ch sig' N1 N2 (t & Ev). exists t. now apply args_skip. }
    intros [|ch sig'] E H; [discriminate|].
    cbn [sig_slots] in E. destruct H as [H|H]; rewrite H in E; [discriminate|].
    injection E as E.
    destruct (IHa sig' (mk_ps s2 t1 (p_mode p)) s') as (t2 & Ev2); auto.
    { unfold p_peek; cbn [p_lex]. apply (Reads_peek _ _ _ _ 0 R1'). discriminate. }
    { eapply Reads_wf; eassumption. }
    exists t2. apply ev_S. eapply ev_ext.
    { intros n. rewrite parse_args_S, H, P. change (91 =? 91) with true. cbv iota.
      rewrite (expect_of_lex "[" KLbrack p x s1 (shape_lbrack U)) by (assumption || discriminate).
      reflexivity. }
    cbn [bind]. eapply ev_bind; [exact Ev1|]. cbv beta iota.
    eapply ev_bind; [exact Ev2|]. apply ev_ret.
  - (* args: optional, absent *)
    intros m pk sg xs args o Pk G IHa sig p s' Sg M P W R.
    apply (sig_slots_skip sig _ Sg).
    2:{ intros ch sig' N1 N2 (t & Ev). exists t. now apply args_skip. }
    intros [|ch sig'] E H; [discriminate|].
    cbn [sig_slots] in E. destruct H as [H|H]; rewrite H in E; [discriminate|].
    injection E as E. destruct (IHa sig' p s') as (t2 & Ev2); auto.
    exists t2. apply ev_S. eapply ev_ext; [|exact Ev2].
    intros n. rewrite parse_args_S, H, P. now rewrite (proj2 (Z.eqb_neq pk 91) Pk).
Qed.

(* ------------------------------------------------------------------ *)
(** ** ParseExpr and the grammar *)

Theorem parse_expr_sound x ns :
  parse_expr U x = Ok ns -> exists xs, Tokens x xs /\ GDoc known_macro xs ns.
Proof.
  unfold parse_expr. intros H. apply bind_ok in H as ([[ns' r] p'] & H & E). inv E.
  apply (proj1 (proj2 (parse_sound _)) CNone) in H as (M & xs & o & R & G);
    [|apply init_lex_wf].
  cbn in M, R, G.
  assert (A : forall m xs ns r o, GLoop m CNone xs ns r o -> r = 0 /\ o = true).
  { clear. intros m xs ns r o G. remember CNone as c eqn:Ec. revert Ec.
    induction G; intros Ec; subst; auto. now cbn in H. }
  destruct (A _ _ _ _ _ G) as [-> ->].
  exists xs. split; [exists (p_lex p'); exact R|exact G].
Qed.

Theorem parse_expr_complete x xs ns :
  Tokens x xs -> GDoc known_macro xs ns -> parse_expr U x = Ok ns.
Proof.
  intros (s & R) G. apply (proj1 (proj2 parse_complete)) in G.
  destruct (G (init_parser x) s) as (t & n0 & Ev); [reflexivity|apply init_lex_wf|exact R|].
  pose proof (parse_expr_no_fuel U x) as NF. unfold parse_expr in *.
  set (n := parse_fuel x) in *.
  assert (NF' : parse_loop n StopNever (init_parser x) <> OutOfFuel).
  { intros E. apply NF. now rewrite E. }
  pose proof (proj1 (proj2 (parse_mono U n)) (n + n0)%nat _ _ (Nat.le_add_r _ _) NF') as Mo.
  rewrite <- Mo. cbn [stop_of] in Ev. rewrite Ev by lia. reflexivity.
Qed.

Theorem parse_expr_iff x ns :
  parse_expr U x = Ok ns <-> exists xs, Tokens x xs /\ GDoc known_macro xs ns.
Proof.
  split; [apply parse_expr_sound|]. intros (xs & T & G). eapply parse_expr_complete; eassumption.
Qed.

(** The token sequence of an input is unique. *)
Lemma Lexes_eof_det s xs t s' ys t' s'' :
  Lexes s xs t -> EofStep t s' -> Lexes s ys t' -> EofStep t' s'' -> xs = ys /\ s' = s''.
Proof.
  intros L; revert ys; induction L as [s|s x s1 xs s2 H K L IH]; intros ys E L' E'.
  - inv L'; [split; [reflexivity|eapply eof_det; eassumption]|].
    destruct E as (y & E & Ky). rewrite E in H. inv H. contradiction.
  - inv L'.
    + destruct E' as (y & E' & Ky). rewrite E' in H. inv H. contradiction.
    + rewrite H in H0. inv H0. destruct (IH _ E H2 E') as [-> ->]. auto.
Qed.

Lemma Tokens_det x xs ys : Tokens x xs -> Tokens x ys -> xs = ys.
Proof.
  intros (s & t & L & E) (s' & t' & L' & E'). eapply Lexes_eof_det; eassumption.
Qed.

End WithLetters.
