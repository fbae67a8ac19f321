(** Walk and Print. *)
From Coq Require Import ZArith String Ascii List Bool Lia.
From Verif Require Import Utf8 Token Ast TreeSpec AstSpec Utf8Facts LexFacts.
Import ListNotations.
Local Open Scope string_scope.
Local Open Scope list_scope.
Local Open Scope Z_scope.

(** *** Walk *)
Section WalkFacts.
  Variables V S : Type.
  Variable visit : V -> node -> S -> option (option V * S).
  Notation walk := (walk V S visit).

  Fixpoint walk_list (w : V) (l : list node) (s : S) : option S :=
    match l with [] => Some s | x :: l' => obind (walk w x s) (walk_list w l') end.

  Definition walk_children (w : V) (n : node) (s1 : S) : option S :=
    match n with
    | NList l | NArg _ l _ | NOptArg _ l _ | NMath _ _ l _ => walk_list w l s1
    | NMacro nm l =>
      match nm with
      | Some (p, t) =>
        obind (match visit w (NIdent p t) s1 with
               | None => None
               | Some (None, s2) => Some s2
               | Some (Some w', s2) => obind (visit w' NNil s2) (fun r => Some (snd r))
               end) (walk_list w l)
      | None => walk_list w l s1
      end
    | NIdent _ _ | NWord _ _ | NLit _ _ | NSym _ _ => Some s1
    | NSub _ x | NSup _ x => walk w x s1
    | NNil => None
    end.

  Lemma walk_eq v n s :
    walk v n s =
    match visit v n s with
    | None => None
    | Some (None, s1) => Some s1
    | Some (Some w, s1) =>
      obind (walk_children w n s1) (fun s2 => obind (visit w NNil s2) (fun r => Some (snd r)))
    end.
  Proof.
    destruct n; cbn; destruct (visit v _ s) as [[[w|] s1]|]; try reflexivity;
      try (unfold walk_children; f_equal; clear; revert s1; induction l as [|x l IH]; intros s1; cbn; [reflexivity|];
           destruct (walk w x s1); cbn; auto; fail).
    unfold walk_children. f_equal. destruct name as [[p t]|].
    - destruct (visit w (NIdent p t) s1) as [[[w'|] s2]|]; cbn; auto.
      + destruct (visit w' NNil s2) as [r|]; cbn; auto. generalize (snd r). clear.
        induction args as [|x l IH]; intros s1; cbn; [reflexivity|]. destruct (walk w x s1); cbn; auto.
      + clear. revert s2. induction args as [|x l IH]; intros s1; cbn; [reflexivity|].
        destruct (walk w x s1); cbn; auto.
    - clear. revert s1. induction args as [|x l IH]; intros s1; cbn; [reflexivity|].
      destruct (walk w x s1); cbn; auto.
  Qed.

  Variable g : V -> node -> option V.
  Variable f : V -> node -> S -> S.
  Hypothesis Hvisit : forall v n s, visit v n s = Some (g v n, f v n s).

  Definition run (calls : list (V * node)) (s : S) : S :=
    fold_left (fun s c => f (fst c) (snd c) s) calls s.

  Lemma run_app a b s : run (a ++ b) s = run b (run a s).
  Proof. unfold run. apply fold_left_app. Qed.

  Lemma walk_visits n : ~ In NNil (subnodes n) ->
    forall v s, walk v n s = Some (run (visits V g v n) s).
  Proof.
    assert (L : forall l, Forall (fun n => ~ In NNil (subnodes n) ->
        forall v s, walk v n s = Some (run (visits V g v n) s)) l ->
      ~ In NNil (flat_map subnodes l) ->
      forall w s, walk_list w l s = Some (run (flat_map (visits V g w) l) s)).
    { induction 1 as [|x l Hx Hl IH]; intros N w s; cbn [walk_list flat_map]; [reflexivity|].
      cbn [flat_map] in N. rewrite in_app_iff in N.
      rewrite Hx by tauto. cbn [obind]. rewrite IH by tauto. now rewrite run_app. }
    induction n using node_ind'; intros N v st; rewrite walk_eq, Hvisit;
      cbn [visits]; unfold answer at 1; unfold run at 1; cbn [fold_left fst snd].
    1: { exfalso. apply N. now left. }
    all: match goal with |- context [match ?o with _ => _ end = _] => destruct o as [w|] eqn:Eg end;
      [|reflexivity]; cbn [walk_children].
    all: assert (N' := N); cbn [subnodes] in N.
    all: try match goal with Q : Forall _ ?l |- _ =>
      specialize (L l Q ltac:(intros I; apply N; right; rewrite ?in_app_iff; tauto)) end.
    1,3,4,6: rewrite L; cbn [obind]; rewrite Hvisit; cbn [obind snd];
      match goal with |- _ = Some (fold_left _ ?c ?s) => change (fold_left _ c s) with (run c s) end;
      now rewrite run_app.
    - destruct nm as [[p t]|].
      + rewrite Hvisit. unfold answer.
        match goal with |- _ = Some (fold_left _ ?c ?s) => change (fold_left _ c s) with (run c s) end.
        destruct (g w (NIdent p t)) as [w'|] eqn:E2.
        * rewrite Hvisit. cbn [obind snd]. rewrite L. cbn [obind]. rewrite Hvisit. cbn [obind snd].
          rewrite !run_app. reflexivity.
        * cbn [obind]. rewrite L. cbn [obind]. rewrite Hvisit. cbn [obind snd]. rewrite !run_app. reflexivity.
      + rewrite L. cbn [obind]. rewrite Hvisit. cbn [obind snd app].
        match goal with |- _ = Some (fold_left _ ?c ?s) => change (fold_left _ c s) with (run c s) end.
        now rewrite run_app.
    - cbn [obind]. rewrite Hvisit. reflexivity.
    - cbn [obind]. rewrite Hvisit. reflexivity.
    - cbn [obind]. rewrite Hvisit. reflexivity.
    - cbn [obind]. rewrite Hvisit. reflexivity.
    - rewrite IHn by (intros I; apply N; now right). cbn [obind]. rewrite Hvisit. cbn [obind snd].
      match goal with |- _ = Some (fold_left _ ?c ?s) => change (fold_left _ c s) with (run c s) end.
      now rewrite run_app.
    - rewrite IHn by (intros I; apply N; now right). cbn [obind]. rewrite Hvisit. cbn [obind snd].
      match goal with |- _ = Some (fold_left _ ?c ?s) => change (fold_left _ c s) with (run c s) end.
      now rewrite run_app.
  Qed.

  (** A visitor that accepts every node, nil included, makes Walk panic on a
      tree with a nil node. *)
  Hypothesis Hall : forall v n, g v n <> None.

  Lemma walk_nil n : In NNil (subnodes n) -> forall v s, walk v n s = None.
  Proof.
    assert (L : forall l, Forall (fun n => In NNil (subnodes n) -> forall v s, walk v n s = None) l ->
      In NNil (flat_map subnodes l) -> forall w s, walk_list w l s = None).
    { induction 1 as [|x l Hx Hl IH]; intros N w s; cbn [walk_list flat_map]; [contradiction|].
      cbn [flat_map] in N. rewrite in_app_iff in N.
      destruct (walk w x s) as [s1|] eqn:E; [|reflexivity]. cbn [obind].
      destruct N as [N|N]; [rewrite Hx in E by assumption; discriminate|]. now apply IH. }
    induction n using node_ind'; intros N v st; rewrite walk_eq, Hvisit;
      match goal with |- context [g v ?n] => destruct (g v n) as [w|] eqn:Eg; [|now apply Hall in Eg] end;
      cbn [walk_children]; try reflexivity;
      cbn [subnodes] in N; try (destruct N as [N|N]; [discriminate|]); try contradiction.
    1,3,4,5: rewrite L by assumption; reflexivity.
    - destruct nm as [[p t]|].
      + cbn [app] in N. destruct N as [N|N]; [discriminate|]. rewrite Hvisit.
        destruct (g w (NIdent p t)) as [w'|]; [rewrite Hvisit|]; cbn [obind snd]; rewrite L by assumption; reflexivity.
      + rewrite L by assumption. reflexivity.
    - rewrite IHn by assumption. reflexivity.
    - rewrite IHn by assumption. reflexivity.
  Qed.
End WalkFacts.

(** For a visitor that always answers itself, the non-nil calls are the nodes
    in depth-first source order. *)
Definition is_nil (n : node) : bool := match n with NNil => true | _ => false end.

Lemma visits_all (V : Type) (v : V) n :
  ~ In NNil (subnodes n) ->
  filter (fun x => negb (is_nil x)) (map snd (visits V (fun w _ => Some w) v n)) = subnodes n /\
  List.length (filter is_nil (map snd (visits V (fun w _ => Some w) v n))) = List.length (subnodes n).
Proof.
  assert (L : forall l, Forall (fun n => ~ In NNil (subnodes n) ->
      filter (fun x => negb (is_nil x)) (map snd (visits V (fun w _ => Some w) v n)) = subnodes n /\
      List.length (filter is_nil (map snd (visits V (fun w _ => Some w) v n))) = List.length (subnodes n)) l ->
    ~ In NNil (flat_map subnodes l) ->
    filter (fun x => negb (is_nil x)) (map snd (flat_map (visits V (fun w _ => Some w) v) l)) = flat_map subnodes l /\
    List.length (filter is_nil (map snd (flat_map (visits V (fun w _ => Some w) v) l))) = List.length (flat_map subnodes l)).
  { induction 1 as [|x l Hx Hl IH]; intros N; cbn [flat_map]; [auto|].
    cbn [flat_map] in N. rewrite in_app_iff in N. rewrite !map_app, !filter_app, !app_length.
    destruct Hx as [-> ->]; [tauto|]. destruct IH as [-> ->]; [tauto|]. auto. }
  induction n using node_ind'; intros N; cbn [visits subnodes]; unfold answer.
  1: { exfalso. apply N. now left. }
  all: cbn [subnodes] in N; cbn [map snd filter is_nil negb List.length].
  all: rewrite ?map_app, ?filter_app, ?app_length; cbn [map snd filter is_nil negb List.length]; rewrite ?app_length; cbn [map snd filter is_nil negb List.length].
  all: try (destruct (L _ H) as [L1 L2]; [intros I; apply N; right; rewrite ?in_app_iff; tauto|]).
  1,3,4,6: rewrite L1, L2, app_nil_r; split; [reflexivity|lia].
  - destruct nm as [[p t]|]; unfold answer; cbn [app map snd filter is_nil negb List.length];
      rewrite L1, L2, app_nil_r; split; try reflexivity; lia.
  - split; reflexivity.
  - split; reflexivity.
  - split; reflexivity.
  - split; reflexivity.
  - destruct IHn as [L1 L2]; [intros I; apply N; now right|]. rewrite L1, L2, app_nil_r. split; [reflexivity|lia].
  - destruct IHn as [L1 L2]; [intros I; apply N; now right|]. rewrite L1, L2, app_nil_r. split; [reflexivity|lia].
Qed.

(** *** Print *)
Section PrintFacts.
  Variable quote : string -> string.
  Notation print := (print quote).

  Fixpoint plist (first : bool) (l : list node) : option string :=
    match l with
    | [] => Some ""
    | x :: l' =>
      obind (print x) (fun a => obind (plist false l') (fun b =>
      Some (append (if first then "" else ", ") (append a b))))
    end.

  Definition wrap (a : string) (o : option string) (b : string) : option string :=
    obind o (fun s => Some (append a (append s b))).

  Lemma print_eq n : print n =
    match n with
    | NArg _ l _ => wrap "{" (plist true l) "}"
    | NIdent _ s => Some (append "ast.Ident{" (append (quote s) "}"))
    | NMacro None _ => None
    | NMacro (Some (_, s)) l =>
      match l with
      | [] => Some (append "ast.Macro{" (append (quote s) "}"))
      | _ => obind (plist true l) (fun t =>
          Some (append "ast.Macro{" (append (quote s) (append ", Args:" (append t "}")))))
      end
    | NMath _ _ l _ =>
      match l with [] => Some "ast.MathExpr{}" | _ => wrap "ast.MathExpr{List:" (plist true l) "}" end
    | NOptArg _ l _ => wrap "[" (plist true l) "]"
    | NWord _ s => Some (append "ast.Word{" (append (quote s) "}"))
    | NLit _ s => Some (append "ast.Lit{" (append (quote s) "}"))
    | NList l => wrap "ast.List{" (plist true l) "}"
    | NSub _ x => wrap "ast.Sub{" (print x) "}"
    | NSup _ x => wrap "ast.Sup{" (print x) "}"
    | NSym _ s => Some (append "ast.Symbol{" (append (quote s) "}"))
    | NNil => Some "<nil>"
    end.
  Proof.
    assert (P : forall l b, (fix plist (first : bool) (l : list node) : option string :=
      match l with
      | [] => Some ""
      | x :: l' =>
        obind (print x) (fun a => obind (plist false l') (fun b =>
        Some ((if first then "" else ", ") ++ a ++ b)%string))
      end) b l = plist b l).
    { induction l as [|x l IH]; intros b; cbn; [reflexivity|]. now rewrite IH. }
    destruct n; unfold wrap; cbn [Ast.print]; try reflexivity; rewrite ?P; try reflexivity.
  Qed.

  Lemma print_total n : Forall named (subnodes n) -> print n <> None.
  Proof.
    assert (L : forall l, Forall (fun n => Forall named (subnodes n) -> print n <> None) l ->
      Forall named (flat_map subnodes l) -> forall b, plist b l <> None).
    { induction 1 as [|x l Hx Hl IH]; intros N b; cbn [plist]; [discriminate|].
      cbn [flat_map] in N. apply Forall_app in N as [N1 N2].
      destruct (print x) eqn:E; [|now apply Hx in N1]. cbn. specialize (IH N2 false).
      destruct (plist false l); [discriminate|congruence]. }
    induction n using node_ind'; intros N; rewrite print_eq; unfold wrap; try discriminate;
      cbn [subnodes] in N; inversion N as [|? ? N0 N1]; subst; clear N.
    1,3,4: specialize (L _ H N1 true); destruct (plist true l); [discriminate|congruence].
    - destruct nm as [[p s]|]; [|contradiction]. destruct l as [|y l]; [discriminate|].
      cbn [app] in N1. inversion N1; subst.
      specialize (L _ H ltac:(assumption) true); destruct (plist true (y :: l)); [discriminate|congruence].
    - destruct l as [|y l]; [discriminate|].
      specialize (L _ H N1 true); destruct (plist true (y :: l)); [discriminate|congruence].
    - specialize (IHn N1). destruct (print n); [discriminate|congruence].
    - specialize (IHn N1). destruct (print n); [discriminate|congruence].
  Qed.

  Hypothesis Hq : self_delimiting quote.

  (** First characters. *)
  Lemma print_first n s : print n = Some s ->
    exists c t, s = String c t /\ (c = "{" \/ c = "[" \/ c = "a" \/ c = "<")%char.
  Proof.
    rewrite print_eq. unfold wrap.
    destruct n; intros H;
      try (destruct name as [[p q]|]; [|discriminate]; destruct args);
      try (match type of H with match ?l with _ => _ end = _ => destruct l end);
      try (apply (f_equal (fun o => o)) in H; destruct (plist true _) eqn:E; [|discriminate]);
      try (destruct (print n) eqn:E; [|discriminate]);
      cbn in H; injection H as <-; cbn; do 2 eexists; split; try reflexivity; tauto.
  Qed.

  Definition tag (n : node) : string :=
    match n with
    | NNil => "<nil>" | NList _ => "ast.List{" | NMacro _ _ => "ast.Macro{" | NArg _ _ _ => "{"
    | NOptArg _ _ _ => "[" | NIdent _ _ => "ast.Ident{" | NMath _ _ _ _ => "ast.MathExpr{"
    | NWord _ _ => "ast.Word{" | NLit _ _ => "ast.Lit{" | NSym _ _ => "ast.Symbol{"
    | NSub _ _ => "ast.Sub{" | NSup _ _ => "ast.Sup{"
    end.

  Definition body (n : node) : option string :=
    match n with
    | NNil => Some ""
    | NList l | NArg _ l _ => wrap "" (plist true l) "}"
    | NOptArg _ l _ => wrap "" (plist true l) "]"
    | NMacro None _ => None
    | NMacro (Some (_, s)) l =>
      match l with
      | [] => Some (append (quote s) "}")
      | _ => obind (plist true l) (fun t => Some (append (quote s) (append ", Args:" (append t "}"))))
      end
    | NMath _ _ l _ =>
      match l with [] => Some "}" | _ => wrap "List:" (plist true l) "}" end
    | NIdent _ s | NWord _ s | NLit _ s | NSym _ s => Some (append (quote s) "}")
    | NSub _ x | NSup _ x => wrap "" (print x) "}"
    end.

  Lemma print_tag n : print n = obind (body n) (fun b => Some (append (tag n) b)).
  Proof.
    rewrite print_eq. unfold wrap.
    destruct n; cbn [body tag obind]; unfold wrap; try reflexivity;
      try (destruct (plist true l); reflexivity); try (destruct (print n); reflexivity).
    - destruct name as [[p s]|]; [|reflexivity]. destruct args; [reflexivity|].
      destruct (plist true (n :: args)); reflexivity.
    - destruct l; [reflexivity|]. destruct (plist true (n :: l)); reflexivity.
  Qed.

  Lemma tag_inj x y a b : append (tag x) a = append (tag y) b -> tag x = tag y /\ a = b.
  Proof.
    destruct x, y; cbn; intros H; try discriminate H; repeat (injection H as H); subst; auto;
      discriminate.
  Qed.

  Definition closing_char (c : ascii) : Prop := c = "}"%char \/ c = "]"%char.

  Definition inj_at (x : node) : Prop :=
    forall y sx sy r s, print x = Some sx -> print y = Some sy -> append sx r = append sy s ->
      erase x = erase y /\ r = s.

  Lemma plist_inj l : Forall inj_at l ->
    forall b l' s1 s2 c c' r s, plist b l = Some s1 -> plist b l' = Some s2 ->
      closing_char c -> closing_char c' ->
      append s1 (String c r) = append s2 (String c' s) ->
      map erase l = map erase l' /\ c = c' /\ r = s.
  Proof.
    assert (F : forall b x l s c r, closing_char c -> plist b (x :: l) = Some s ->
       append s (String c r) <> String c r /\
       forall c' r', closing_char c' -> append s (String c r) <> String c' r').
    { intros b x l0 s c r C H. assert (G : forall c' r', closing_char c' -> append s (String c r) <> String c' r').
      { intros c' r' C' E. cbn [plist] in H. destruct (print x) as [a|] eqn:P; [|discriminate]. cbn in H.
        destruct (plist false l0); [|discriminate]. cbn in H. injection H as <-.
        apply print_first in P as (z & t & -> & Z). destruct b; cbn in E; injection E as E1 _; subst.
        - destruct C' as [-> | ->]; destruct Z as [Z|[Z|[Z|Z]]]; discriminate.
        - destruct C' as [E|E]; discriminate. }
      split; [now apply G|exact G]. }
    induction 1 as [|x l Hx Hl IH]; intros b l' s1 s2 c c' r s H1 H2 C C' E.
    - destruct l' as [|y l'].
      + injection H1 as <-. injection H2 as <-. cbn in E. injection E as -> ->. auto.
      + injection H1 as <-. cbn in E. symmetry in E. eapply F in E; eauto. contradiction.
    - destruct l' as [|y l'].
      + injection H2 as <-. cbn in E. eapply F in E; eauto. contradiction.
      + cbn [plist] in H1, H2.
        destruct (print x) as [a|] eqn:Px; [|discriminate]. destruct (print y) as [a'|] eqn:Py; [|discriminate].
        cbn [obind] in *.
        destruct (plist false l) as [t|] eqn:Pl; [|discriminate]. destruct (plist false l') as [t'|] eqn:Pl'; [|discriminate].
        cbn [obind] in *. injection H1 as <-. injection H2 as <-.
        assert (E' : append a (append t (String c r)) = append a' (append t' (String c' s))).
        { rewrite !sapp_assoc in E. destruct b; cbn in E; [exact E|]. now injection E. }
        destruct (Hx _ _ _ _ _ Px Py E') as [Ex Et].
        destruct (IH _ _ _ _ _ _ _ _ Pl Pl' C C' Et) as (El & Ec & Er).
        cbn. rewrite Ex, El. auto.
  Qed.

  Lemma tag_head x y : tag x = tag y ->
    match x, y with
    | NNil, NNil | NList _, NList _ | NMacro _ _, NMacro _ _ | NArg _ _ _, NArg _ _ _
    | NOptArg _ _ _, NOptArg _ _ _ | NIdent _ _, NIdent _ _ | NMath _ _ _ _, NMath _ _ _ _
    | NWord _ _, NWord _ _ | NLit _ _, NLit _ _ | NSym _ _, NSym _ _
    | NSub _ _, NSub _ _ | NSup _ _, NSup _ _ => True
    | _, _ => False
    end.
  Proof. destruct x, y; cbn; intros H; try discriminate H; exact I. Qed.

  Lemma wrap_inv a o b s : wrap a o b = Some s -> exists t, o = Some t /\ s = append a (append t b).
  Proof. destruct o; cbn; intros [= <-]; eauto. Qed.

  Lemma print_split n s : print n = Some s -> exists b, body n = Some b /\ s = append (tag n) b.
  Proof. rewrite print_tag. destruct (body n) as [b|]; [|discriminate]. cbn [obind]. intros H. exists b. split; congruence. Qed.

  Lemma print_inj x : inj_at x.
  Proof.
    induction x using node_ind'; intros y sx sy r r' Px Py E;
      apply print_split in Px as (bx & Bx & ->); apply print_split in Py as (by_ & By & ->);
      rewrite !sapp_assoc in E; apply tag_inj in E as [T E]; apply tag_head in T;
      destruct y; try contradiction; clear T; cbn [body] in Bx, By; cbn [erase].
    - injection Bx as <-. injection By as <-. auto.
    - apply wrap_inv in Bx as (t & P & ->). apply wrap_inv in By as (t' & P' & ->).
      cbn [append] in E. rewrite !sapp_assoc in E. cbn [append] in E.
      destruct (plist_inj _ H _ _ _ _ _ _ _ _ P P' ltac:(now left) ltac:(now left) E) as (-> & _ & ->). auto.
    - destruct nm as [[p q]|]; [|discriminate]. destruct name as [[p' q']|]; [|discriminate].
      destruct l as [|z l], args as [|z' l'].
      + injection Bx as <-. injection By as <-. rewrite !sapp_assoc in E. apply Hq in E as [-> E].
        cbn in E. injection E as ->. auto.
      + injection Bx as <-. destruct (plist true (z' :: l')) as [t'|] eqn:P'; [|discriminate].
        cbn [obind] in By. injection By as <-. rewrite !sapp_assoc in E. apply Hq in E as [_ E]. discriminate E.
      + injection By as <-. destruct (plist true (z :: l)) as [t|] eqn:P; [|discriminate].
        cbn [obind] in Bx. injection Bx as <-. rewrite !sapp_assoc in E. apply Hq in E as [_ E]. discriminate E.
      + destruct (plist true (z :: l)) as [t|] eqn:P; [|discriminate].
        destruct (plist true (z' :: l')) as [t'|] eqn:P'; [|discriminate].
        cbn [obind] in Bx, By. injection Bx as <-. injection By as <-. rewrite !sapp_assoc in E.
        apply Hq in E as [-> E]. cbn [append] in E. repeat (injection E as E).
        rewrite !sapp_assoc in E; cbn [append] in E.
        destruct (plist_inj _ H _ _ _ _ _ _ _ _ P P' ltac:(now left) ltac:(now left) E) as (-> & _ & ->). auto.
    - apply wrap_inv in Bx as (t & P & ->). apply wrap_inv in By as (t' & P' & ->).
      cbn [append] in E. rewrite !sapp_assoc in E. cbn [append] in E.
      destruct (plist_inj _ H _ _ _ _ _ _ _ _ P P' ltac:(now left) ltac:(now left) E) as (-> & _ & ->). auto.
    - apply wrap_inv in Bx as (t & P & ->). apply wrap_inv in By as (t' & P' & ->).
      cbn [append] in E. rewrite !sapp_assoc in E. cbn [append] in E.
      destruct (plist_inj _ H _ _ _ _ _ _ _ _ P P' ltac:(now right) ltac:(now right) E) as (-> & _ & ->). auto.
    - injection Bx as <-. injection By as <-. rewrite !sapp_assoc in E. apply Hq in E as [-> E].
      cbn in E. injection E as ->. auto.
    - destruct l as [|z l], l0 as [|z' l'].
      + injection Bx as <-. injection By as <-. cbn in E. injection E as ->. auto.
      + injection Bx as <-. apply wrap_inv in By as (t' & P' & ->). discriminate E.
      + injection By as <-. apply wrap_inv in Bx as (t' & P' & ->). discriminate E.
      + apply wrap_inv in Bx as (t & P & ->). apply wrap_inv in By as (t' & P' & ->).
        cbn [append] in E. rewrite !sapp_assoc in E. cbn [append] in E. repeat (injection E as E).
        rewrite ?sapp_assoc in E; cbn [append] in E.
        destruct (plist_inj _ H _ _ _ _ _ _ _ _ P P' ltac:(now left) ltac:(now left) E) as (-> & _ & ->). auto.
    - injection Bx as <-. injection By as <-. rewrite !sapp_assoc in E. apply Hq in E as [-> E].
      cbn in E. injection E as ->. auto.
    - injection Bx as <-. injection By as <-. rewrite !sapp_assoc in E. apply Hq in E as [-> E].
      cbn in E. injection E as ->. auto.
    - injection Bx as <-. injection By as <-. rewrite !sapp_assoc in E. apply Hq in E as [-> E].
      cbn in E. injection E as ->. auto.
    - apply wrap_inv in Bx as (t & P & ->). apply wrap_inv in By as (t' & P' & ->).
      cbn [append] in E. rewrite !sapp_assoc in E. destruct (IHx _ _ _ _ _ P P' E) as [-> E'].
      cbn in E'. injection E' as ->. auto.
    - apply wrap_inv in Bx as (t & P & ->). apply wrap_inv in By as (t' & P' & ->).
      cbn [append] in E. rewrite !sapp_assoc in E. destruct (IHx _ _ _ _ _ P P' E) as [-> E'].
      cbn in E'. injection E' as ->. auto.
  Qed.

  (** Conversely the output depends on nothing else. *)
  Lemma print_erase x : print (erase x) = print x.
  Proof.
    assert (L : forall l, Forall (fun n => print (erase n) = print n) l ->
       forall b, plist b (map erase l) = plist b l).
    { induction 1 as [|n l Hn Hl IH]; intros b; cbn; [reflexivity|]. now rewrite Hn, IH. }
    induction x using node_ind'; cbn [erase]; try reflexivity.
    all: match goal with |- print ?a = print ?b => rewrite (print_eq a), (print_eq b) end; cbn [erase map].
    all: rewrite ?L by assumption; try rewrite IHx; try reflexivity.
    all: try destruct nm as [[? ?]|]; try reflexivity.
    all: destruct l; try reflexivity; cbn [map].
    all: change (erase n :: map erase l) with (map erase (n :: l)); rewrite ?L by assumption; reflexivity.
  Qed.
End PrintFacts.
