(** Nil nodes, unclosed groups, and the order of positions in parsed trees. *)
From Coq Require Import ZArith String Ascii List Bool Lia ZifyBool.
From Verif Require Import Utf8 GoScanner Token Lexer Ast MacroTable SymTable Parser
  Utf8Facts LexFacts LexText Grammar Stream ParserFacts GrammarFacts TreeSpec TreeFacts TreeFacts2.
Import ListNotations.
Local Open Scope string_scope.
Local Open Scope list_scope.
Local Open Scope Z_scope.

Notation GNode := (GNode known_macro).
Notation GLoop := (GLoop known_macro).
Notation GScript := (GScript known_macro).
Notation GArgs := (GArgs known_macro).

(** *** Nil nodes *)
Definition nil_script (xs : list lexeme) (allow : bool) (n : node) : Prop :=
  script_operand n = Some NNil ->
  exists pre l1 l2 post, xs = pre ++ l1 :: l2 :: post /\ node_pos n = Some (xp l1) /\
    (xt l1 = "^" \/ xt l1 = "_") /\
    (xk l2 = KComment \/ (allow = true /\ xk l2 = KSpace)).

Lemma nil_script_embed xs a b al n : nil_script xs al n -> nil_script (a ++ xs ++ b) al n.
Proof.
  intros H E. destruct (H E) as (pre & l1 & l2 & post & -> & R).
  exists (a ++ pre), l1, l2, (post ++ b). split; [|exact R]. now rewrite <- !app_assoc.
Qed.

Lemma nil_script_cons x xs al n : nil_script xs al n -> nil_script (x :: xs) al n.
Proof. intros H. apply (nil_script_embed _ [x] []) in H. now rewrite app_nil_r in H. Qed.
Lemma nil_script_l xs ys al n : nil_script xs al n -> nil_script (xs ++ ys) al n.
Proof. intros H. apply (nil_script_embed _ [] ys) in H. exact H. Qed.
Lemma nil_script_r xs ys al n : nil_script ys al n -> nil_script (xs ++ ys) al n.
Proof. intros H. apply (nil_script_embed _ xs []) in H. now rewrite app_nil_r in H. Qed.

Definition nil_ok (m : bool) (xs : list lexeme) (ns : list node) : Prop :=
  (forall n, In n (flat_map subnodes ns) -> ~ In NNil (list_children n) /\ nil_script xs true n) /\
  (m = false -> forall n, In n (flat_map text_subnodes ns) -> nil_script xs false n).

Lemma In_text_keep x n ns :
  In x (flat_map text_subnodes (keep n ns)) -> In x (text_subnodes n) \/ In x (flat_map text_subnodes ns).
Proof.
  destruct n; cbn [keep]; auto; cbn [flat_map]; intros H; apply in_app_or in H; tauto.
Qed.

Lemma nil_ok_mono m xs ys ns :
  (forall al n, nil_script xs al n -> nil_script ys al n) -> nil_ok m xs ns -> nil_ok m ys ns.
Proof.
  intros H [A B]. split.
  - intros n Hn. destruct (A n Hn). auto.
  - intros M n Hn. auto.
Qed.

Lemma nil_ok_app m xs l l' : nil_ok m xs l -> nil_ok m xs l' -> nil_ok m xs (l ++ l').
Proof.
  intros [A B] [C D]. split.
  - intros n Hn. rewrite flat_map_app in Hn. apply in_app_or in Hn as [Hn|Hn]; auto.
  - intros M n Hn. rewrite flat_map_app in Hn. apply in_app_or in Hn as [Hn|Hn]; auto.
Qed.

Lemma nil_ok_nil m xs : nil_ok m xs [].
Proof. split; [intros n []|intros _ n []]. Qed.

Lemma nil_ok_keep m xs n ns : nil_ok m xs [n] -> nil_ok m xs ns -> nil_ok m xs (keep n ns).
Proof. intros A B. destruct n; cbn [keep]; auto; apply (nil_ok_app m xs [_] ns); auto. Qed.

(** A node built from children that are fine. *)
Lemma nil_ok_node m m' xs n ns :
  (forall x, In x (subnodes n) -> x = n \/ In x (flat_map subnodes ns) \/ exists p t, x = NIdent p t) ->
  (m = false -> m' = false -> forall x, In x (text_subnodes n) ->
     x = n \/ In x (flat_map text_subnodes ns) \/ exists p t, x = NIdent p t) ->
  (m = false -> m' = true -> text_subnodes n = [n]) ->
  ~ In NNil (list_children n) -> nil_script xs (negb (Bool.eqb m false)) n ->
  nil_ok m' xs ns -> nil_ok m xs [n].
Proof.
  intros H1 H2 H3 H4 H5 [A B].
  assert (H6 : nil_script xs true n).
  { intros E. destruct (H5 E) as (pre & l1 & l2 & post & -> & P & T & K).
    exists pre, l1, l2, post. repeat split; auto. tauto. }
  split.
  - intros x Hx. cbn in Hx. rewrite app_nil_r in Hx. apply H1 in Hx as [->|[Hx|(p & t & ->)]]; auto.
    split; [auto|discriminate].
  - intros M x Hx. subst m. cbn in Hx. rewrite app_nil_r in Hx. destruct m'.
    + rewrite H3 in Hx by auto. destruct Hx as [<-|[]]. exact H5.
    + apply H2 in Hx as [->|[Hx|(p & t & ->)]]; auto. discriminate.
Qed.

Lemma GNode_nil_inv m xs nd o : GNode m xs nd o -> nd = NNil ->
  exists x, xs = [x] /\ (xk x = KComment \/ (m = true /\ xk x = KSpace)).
Proof. intros H; destruct H; intros E; try discriminate; eauto. Qed.

Lemma GScript_nil_inv m pk xs nd o : GScript m pk xs nd o -> nd = NNil ->
  exists x, xs = [x] /\ (xk x = KComment \/ (m = true /\ xk x = KSpace)).
Proof.
  intros H; destruct H; intros E; [discriminate|]. eapply GNode_nil_inv; eassumption.
Qed.

Lemma not_nil_keep n ns : ~ In NNil ns -> ~ In NNil (keep n ns).
Proof. intros H. destruct n; cbn [keep]; auto; intros [E|E]; auto; discriminate. Qed.

Lemma args_not_nil sg args : args_match sg args -> ~ In NNil args.
Proof. induction 1; cbn; auto; intros [E|E]; auto; discriminate. Qed.

Lemma grammar_nil :
  (forall m xs nd o, GNode m xs nd o -> nil_ok m xs [nd]) /\
  (forall m c xs ns r o, GLoop m c xs ns r o -> nil_ok m xs ns /\ ~ In NNil ns) /\
  (forall m pk xs nd o, GScript m pk xs nd o -> nil_ok m xs [nd]) /\
  (forall m pk sg xs args o, GArgs m pk sg xs args o -> nil_ok m xs args /\ ~ In NNil args).
Proof.
  assert (L : forall m xs n, subnodes n = [n] -> text_subnodes n = [n] -> list_children n = [] ->
    script_operand n = None -> nil_ok m xs [n]).
  { intros m xs n S T C E. apply (nil_ok_node m m xs n []).
    - rewrite S. intros x [<-|[]]; auto.
    - intros M _ x. rewrite T. intros [<-|[]]; auto.
    - auto.
    - now rewrite C.
    - intros E'. congruence.
    - apply nil_ok_nil. }
  assert (G : forall m xs x (n : node) ns, 
    subnodes n = n :: flat_map subnodes ns -> text_subnodes n = n :: flat_map text_subnodes ns ->
    list_children n = ns -> script_operand n = None -> ~ In NNil ns ->
    nil_ok m xs ns -> nil_ok m (x :: xs) [n]).
  { intros m xs x n ns S T C E N H. apply nil_ok_mono with (xs := xs).
    { intros al k. apply nil_script_cons. }
    apply (nil_ok_node m m xs n ns).
    - rewrite S. intros y [<-|Hy]; auto.
    - intros M _ y. rewrite T. intros [<-|Hy]; auto.
    - congruence.
    - now rewrite C.
    - intros E'. congruence.
    - exact H. }
  assert (Sc : forall m x xs p nd o (b : bool), GScript m (x_peek x) xs nd o -> nil_ok m xs [nd] ->
    xp x = p -> xt x = (if b then "^" else "_") ->
    nil_ok m (x :: xs) [if b then NSup p nd else NSub p nd]).
  { intros m x xs p nd o b Gs H P T.
    apply (nil_ok_node m m (x :: xs) _ [nd]).
    - destruct b; intros y [<-|Hy]; auto; right; left; cbn; now rewrite app_nil_r.
    - intros M _. destruct b; intros y [<-|Hy]; auto; right; left; cbn; now rewrite app_nil_r.
    - congruence.
    - destruct b; intros [].
    - intros E. assert (E' : nd = NNil) by (destruct b; cbn in E; congruence).
      destruct (GScript_nil_inv _ _ _ _ _ Gs E') as (y & -> & K).
      exists [], x, y, []. split; [reflexivity|]. split; [destruct b; cbn; congruence|].
      split; [destruct b; auto|]. destruct K as [K|[-> K]]; auto.
    - apply nil_ok_mono with (xs := xs); [|exact H]. intros al k; apply nil_script_cons. }
  apply (G_mutind known_macro).
  - intros; apply L; reflexivity.
  - intros; apply L; reflexivity.
  - intros; apply L; reflexivity.
  - intros; apply L; reflexivity.
  - intros; apply L; reflexivity.
  - intros; apply L; reflexivity.
  - intros; apply L; reflexivity.
  - intros m x xs ns c o K E _ [IH NN]. apply nil_ok_mono with (xs := xs).
    { intros al k. apply nil_script_cons. }
    apply (nil_ok_node m true xs _ ns); auto.
    + intros y [<-|Hy]; auto.
    + discriminate.
    + intros E'; discriminate E'.
  - intros x xs ns c o K _ [IH NN]. apply G with (ns := ns); auto.
  - intros m x xs nd o K E Gs IH. apply (Sc m x xs (xp x) nd o true); auto.
  - intros m x xs nd o K E Gs IH. apply (Sc m x xs (xp x) nd o false); auto.
  - intros m x xs sg args o K E _ [IH NN]. apply nil_ok_mono with (xs := xs).
    { intros al k. apply nil_script_cons. }
    apply (nil_ok_node m m xs _ args); auto.
    + intros y [<-|[<-|Hy]]; eauto.
    + intros M _ y [<-|[<-|Hy]]; eauto.
    + congruence.
    + intros E'; discriminate E'.
  - intros. split; [apply nil_ok_nil|intros []].
  - intros. split; [apply nil_ok_nil|intros []].
  - intros m c x xs nd o ys ns r o' NC _ IHn Ho _ [IHl NN]. split; [|now apply not_nil_keep].
    apply nil_ok_keep.
    + change (x :: xs ++ ys) with ((x :: xs) ++ ys). eapply nil_ok_mono; [|exact IHn].
      intros al k; apply nil_script_l.
    + change (x :: xs ++ ys) with ((x :: xs) ++ ys). eapply nil_ok_mono; [|exact IHl].
      intros al k; apply nil_script_r.
  - intros m pk x xs ns c o Pk K _ [IH NN]. apply G with (ns := ns); auto.
  - intros m pk x xs nd o Pk _ IH. exact IH.
  - intros. split; [apply nil_ok_nil|intros []].
  - intros m pk sg x xs ns c o ys args o' K _ [IHl NN] Ho _ [IHa NA].
    split; [|intros [E|E]; [discriminate|auto]].
    change (x :: xs ++ ys) with ((x :: xs) ++ ys).
    apply (nil_ok_app m _ [NArg (xp x) ns c] args).
    + eapply nil_ok_mono; [intros al k; apply nil_script_l|]. apply G with (ns := ns); auto.
    + eapply nil_ok_mono; [intros al k; apply nil_script_r|]. auto.
  - intros m pk sg x xs ns c o ys args o' Pk K _ [IHl NN] Ho _ [IHa NA].
    split; [|intros [E|E]; [discriminate|auto]].
    change (x :: xs ++ ys) with ((x :: xs) ++ ys).
    apply (nil_ok_app m _ [NOptArg (xp x) ns c] args).
    + eapply nil_ok_mono; [intros al k; apply nil_script_l|]. apply G with (ns := ns); auto.
    + eapply nil_ok_mono; [intros al k; apply nil_script_r|]. auto.
  - auto.
Qed.

(** *** Unclosed groups are on the right spine *)
Lemma last_spine_cons x l : l <> [] -> last_spine (x :: l) = last_spine l.
Proof. destruct l; [congruence|reflexivity]. Qed.

Lemma spine_list n l :
  (match n with NList l' | NArg _ l' _ | NOptArg _ l' _ | NMath _ _ l' _ | NMacro _ l' => l' = l
   | _ => False end) -> spine n = n :: last_spine l.
Proof. destruct n; cbn; intros H; try contradiction; subst; reflexivity. Qed.

Definition open_spine (o : bool) (ns : list node) : Prop :=
  forall n, In n (flat_map subnodes ns) -> closing n = Some 0 -> o = true /\ In n (last_spine ns).

Lemma open_spine_node o n ns :
  (forall x, In x (subnodes n) -> x = n \/ In x (flat_map subnodes ns) \/ exists p t, x = NIdent p t) ->
  (closing n = Some 0 -> o = true) -> incl (last_spine ns) (spine n) ->
  open_spine o ns -> open_spine o [n].
Proof.
  intros H1 H2 H3 H4 x Hx C. cbn in Hx. rewrite app_nil_r in Hx. change (last_spine [n]) with (spine n).
  apply H1 in Hx as [->|[Hx|(p & t & ->)]]; [|destruct (H4 _ Hx C); auto|discriminate].
  split; [auto|]. destruct n; cbn; auto.
Qed.

Lemma open_spine_app o o' n ns :
  open_spine o [n] -> open_spine o' ns -> (o = true -> ns = []) ->
  open_spine (o || o') (n :: ns).
Proof.
  intros A B N x Hx C. cbn in Hx. apply in_app_or in Hx as [Hx|Hx].
  - destruct (A x) as [-> I]; [cbn; now rewrite app_nil_r|assumption|].
    rewrite N by reflexivity. auto.
  - destruct (B x Hx C) as [-> I]. split; [apply orb_true_r|].
    rewrite last_spine_cons; [assumption|]. intros ->. destruct I.
Qed.

Lemma open_spine_nil o : open_spine o [].
Proof. intros n []. Qed.

Lemma GArgs_nil_args m pk sg args o : GArgs m pk sg [] args o -> args = [].
Proof.
  remember (@nil lexeme) as xs eqn:E. intros H; revert E; induction H; intros E; auto; discriminate.
Qed.

Definition gordered (a : Z) (xs : list lexeme) : Prop := ordered_from a xs.

Lemma grammar_spine :
  (forall m xs nd o, GNode m xs nd o -> forall a, 0 <= a -> ordered_from a xs -> open_spine o [nd]) /\
  (forall m c xs ns r o, GLoop m c xs ns r o -> forall a, 0 <= a -> ordered_from a xs ->
     open_spine o ns /\ (0 < a -> r = 0 -> o = true) /\ (o = true -> r = 0)) /\
  (forall m pk xs nd o, GScript m pk xs nd o -> forall a, 0 <= a -> ordered_from a xs -> open_spine o [nd]) /\
  (forall m pk sg xs args o, GArgs m pk sg xs args o -> forall a, 0 <= a -> ordered_from a xs ->
     open_spine o args).
Proof.
  assert (L : forall o n, subnodes n = [n] -> closing n = None -> open_spine o [n]).
  { intros o n S C. apply open_spine_node with (ns := []).
    - rewrite S. intros x [<-|[]]; auto.
    - congruence.
    - intros x [].
    - apply open_spine_nil. }
  apply (G_mutind known_macro).
  - intros; apply L; reflexivity.
  - intros; apply L; reflexivity.
  - intros; apply L; reflexivity.
  - intros; apply L; reflexivity.
  - intros; apply L; reflexivity.
  - intros; apply L; reflexivity.
  - intros; apply L; reflexivity.
  - intros m x xs ns c o K E _ IH a A (O1 & O2 & O3).
    destruct (IH (xp x + clen (x_raw x))) as (S & C1 & C2); [lia|assumption|].
    apply open_spine_node with (ns := ns); auto.
    + intros y [<-|Hy]; auto.
    + cbn. intros [= ->]. apply C1; auto; lia.
    + rewrite (spine_list _ ns) by reflexivity. intros y Hy; right; exact Hy.
  - intros x xs ns c o K _ IH a A (O1 & O2 & O3).
    destruct (IH (xp x + clen (x_raw x))) as (S & C1 & C2); [lia|assumption|].
    apply open_spine_node with (ns := ns); auto.
    + intros y [<-|Hy]; auto.
    + discriminate.
    + rewrite (spine_list _ ns) by reflexivity. intros y Hy; right; exact Hy.
  - intros m x xs nd o K E _ IH a A (O1 & O2 & O3).
    apply open_spine_node with (ns := [nd]).
    + intros y [<-|Hy]; auto. right; left; cbn; now rewrite app_nil_r.
    + discriminate.
    + cbn. intros y Hy; right; exact Hy.
    + eapply IH; [|eassumption]. lia.
  - intros m x xs nd o K E _ IH a A (O1 & O2 & O3).
    apply open_spine_node with (ns := [nd]).
    + intros y [<-|Hy]; auto. right; left; cbn; now rewrite app_nil_r.
    + discriminate.
    + cbn. intros y Hy; right; exact Hy.
    + eapply IH; [|eassumption]. lia.
  - intros m x xs sg args o K E _ IH a A (O1 & O2 & O3).
    apply open_spine_node with (ns := args).
    + intros y [<-|[<-|Hy]]; eauto.
    + discriminate.
    + rewrite (spine_list _ args) by reflexivity. intros y Hy; right; exact Hy.
    + eapply IH; [|eassumption]. lia.
  - intros m c a A _. split; [apply open_spine_nil|]. auto.
  - intros m c x Cl a A (O1 & O2 & O3). split; [apply open_spine_nil|]. split; [lia|discriminate].
  - intros m c x xs nd o ys ns r o' NC Gn IHn Ho Gl IHl a A O.
    change (x :: xs ++ ys) with ((x :: xs) ++ ys) in O.
    apply ordered_app in O as (O1 & o2 & O2 & O3 & _).
    destruct (IHl o2) as (S & C1 & C2); [lia|assumption|].
    split; [|split; [intros; apply C1; auto; lia|assumption]].
    specialize (IHn a A O1).
    assert (Ho' : o || o' = o').
    { destruct o; [|reflexivity]. rewrite (Ho eq_refl) in Gl. now apply GLoop_nil in Gl as (_ & _ & ->). }
    rewrite <- Ho'.
    assert (Hn : o = true -> ns = []).
    { intros E. rewrite (Ho E) in Gl. now apply GLoop_nil in Gl as (-> & _). }
    destruct nd; cbn [keep]; try (apply open_spine_app; assumption).
    rewrite Ho'. exact S.
  - intros m pk x xs ns c o Pk K _ IH a A (O1 & O2 & O3).
    destruct (IH (xp x + clen (x_raw x))) as (S & C1 & C2); [lia|assumption|].
    apply open_spine_node with (ns := ns); auto.
    + intros y [<-|Hy]; auto.
    + discriminate.
    + rewrite (spine_list _ ns) by reflexivity. intros y Hy; right; exact Hy.
  - intros m pk x xs nd o Pk _ IH. exact IH.
  - intros. apply open_spine_nil.
  - intros m pk sg x xs ns c o ys args o' K _ IHl Ho Ga IHa a A (O1 & O2 & O3).
    apply ordered_app in O3 as (O4 & o2 & O5 & O6 & _).
    destruct (IHl (xp x + clen (x_raw x))) as (S & C1 & C2); [lia|assumption|].
    apply open_spine_app.
    + apply open_spine_node with (ns := ns); auto.
      * intros y [<-|Hy]; auto.
      * cbn. intros [= ->]. apply C1; auto; lia.
      * rewrite (spine_list _ ns) by reflexivity. intros y Hy; right; exact Hy.
    + eapply IHa; [|eassumption]. lia.
    + intros E. rewrite (Ho E) in Ga. eapply GArgs_nil_args; eassumption.
  - intros m pk sg x xs ns c o ys args o' Pk K _ IHl Ho Ga IHa a A (O1 & O2 & O3).
    apply ordered_app in O3 as (O4 & o2 & O5 & O6 & _).
    destruct (IHl (xp x + clen (x_raw x))) as (S & C1 & C2); [lia|assumption|].
    apply open_spine_app.
    + apply open_spine_node with (ns := ns); auto.
      * intros y [<-|Hy]; auto.
      * cbn. intros [= ->]. apply C1; auto; lia.
      * rewrite (spine_list _ ns) by reflexivity. intros y Hy; right; exact Hy.
    + eapply IHa; [|eassumption]. lia.
    + intros E. rewrite (Ho E) in Ga. eapply GArgs_nil_args; eassumption.
  - auto.
Qed.
