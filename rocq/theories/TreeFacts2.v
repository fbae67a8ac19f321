(** More consequences of the grammar: tokens, blanks, nil nodes, spine, order. *)
From Coq Require Import ZArith String Ascii List Bool Lia ZifyBool.
From Verif Require Import Utf8 GoScanner Token Lexer Ast MacroTable SymTable Parser
  Utf8Facts LexFacts LexText Grammar Stream ParserFacts GrammarFacts TreeSpec TreeFacts.
Import ListNotations.
Local Open Scope string_scope.
Local Open Scope list_scope.
Local Open Scope Z_scope.

Section WithLetters.
Variable U : Z -> bool.
Notation GNode := (GNode known_macro).
Notation GLoop := (GLoop known_macro).
Notation GScript := (GScript known_macro).
Notation GArgs := (GArgs known_macro).

(** Facts about the lexemes of a stream that do not depend on the text. *)
Definition shaped (xs : list lexeme) : Prop := Forall (fun l => tok_shape U (x_tok l)) xs.

Lemma LexAt_shaped x xs : Forall (LexAt U x) xs -> shaped xs.
Proof. intros H. eapply Forall_impl; [|exact H]. intros l. apply LexAt_shape. Qed.

Lemma ordered_weaken xs o o' : o' <= o -> ordered_from o xs -> ordered_from o' xs.
Proof using. clear U. destruct xs; cbn; [auto|]. intros H (H1 & H2 & H3). repeat split; auto; lia. Qed.

Lemma ordered_app o xs ys :
  ordered_from o (xs ++ ys) ->
  ordered_from o xs /\ exists o', o <= o' /\ ordered_from o' ys /\
    (forall l, In l xs -> xp l + clen (x_raw l) <= o') /\ (xs <> [] -> o < o').
Proof using. clear U.
  revert o; induction xs as [|a xs IH]; cbn [app ordered_from]; intros o H.
  - split; [auto|]. exists o. split; [lia|]. split; [assumption|]. split; [intros l []|congruence].
  - destruct H as (H1 & H2 & H3). apply IH in H3 as (A & o' & B & C & D & _). split; [auto|].
    exists o'. repeat split; auto; try lia.
    intros l [<-|I]; [lia|auto].
Qed.

Lemma ordered_ge o xs l : ordered_from o xs -> In l xs -> o <= xp l /\ 0 < clen (x_raw l).
Proof using. clear U.
  revert o; induction xs as [|a xs IH]; cbn; [tauto|]. intros o (H1 & H2 & H3) [<-|H]; [auto|].
  apply (IH _ H3) in H. lia.
Qed.

Definition closed_pos (c : closer) (r : Z) : list (Z * string) :=
  match c with CDollar => close_tok r "$" | CBrack => close_tok r "]" | _ => [] end.

Lemma closes_not_solid c x :
  tok_shape U (x_tok x) -> closes c x -> 0 < xp x ->
  map pos_text (filter solid [x]) = closed_pos c (xp x) /\
  map pos_text (filter solid_sp [x]) = closed_pos c (xp x).
Proof.
  intros S Cl P. unfold solid, solid_sp; destruct c; cbn in *.
  - destruct Cl as [K T]. rewrite K. cbn. unfold close_tok, pos_text.
    rewrite (proj2 (Z.eqb_neq _ _)) by lia. rewrite T. auto.
  - rewrite Cl. auto.
  - rewrite Cl. cbn. unfold close_tok, pos_text. rewrite (proj2 (Z.eqb_neq _ _)) by lia.
    unfold tok_shape in S. unfold xk in Cl. rewrite Cl in S. unfold xt. rewrite S. auto.
  - contradiction.
Qed.

Lemma filter_cons_app {A} (f : A -> bool) x (l : list A) : filter f (x :: l) = filter f [x] ++ filter f l.
Proof using. clear U. cbn. destruct (f x); reflexivity. Qed.

Ltac inv_shaped :=
  repeat match goal with
  | H : shaped (_ :: _) |- _ => unfold shaped in H; inv H
  | H : Forall _ (_ ++ _) |- _ => apply Forall_app in H as [? ?]
  | H : Forall _ (_ :: _) |- _ => inv H
  end.

Lemma symbol_text_solid x : tok_shape U (x_tok x) -> xk x = KSymbol -> is_space_text (xt x) = false.
Proof.
  unfold tok_shape, xk, xt. intros S K. rewrite K in S. destruct S as (r & Sr & ->).
  apply symbol_rune_ascii in Sr. unfold is_space_text.
  rewrite orb_false_iff, !String.eqb_neq. split; intros E; inv E.
  apply (f_equal byte) in H0. rewrite byte_zascii in H0 by lia. cbn in H0. lia.
Qed.

(** The tokens recorded in a tree are those of the stream. *)
Lemma grammar_tokens :
  (forall m xs nd o, GNode m xs nd o -> forall a, 0 <= a -> shaped xs -> ordered_from a xs ->
     tree_tokens nd = map pos_text (filter solid xs)) /\
  (forall m c xs ns r o, GLoop m c xs ns r o ->
     forall a, 0 <= a -> (c = CNone \/ 0 < a) -> shaped xs -> ordered_from a xs ->
     flat_map tree_tokens ns ++ closed_pos c r = map pos_text (filter solid xs)) /\
  (forall m pk xs nd o, GScript m pk xs nd o -> forall a, 0 <= a -> shaped xs -> ordered_from a xs ->
     tree_tokens nd = map pos_text (filter solid xs)) /\
  (forall m pk sg xs args o, GArgs m pk sg xs args o ->
     forall a, 0 < a -> shaped xs -> ordered_from a xs ->
     flat_map tree_tokens args = map pos_text (filter solid xs)).
Proof.
  apply (G_mutind known_macro).
  - intros m x K a A S O. unfold solid; cbn; rewrite K; reflexivity.
  - intros x K a A S O. unfold solid; cbn; rewrite K; reflexivity.
  - intros x K a A S O. unfold solid; cbn; rewrite K. inv_shaped.
    unfold tok_shape in H1. unfold xk in K. rewrite K in H1. unfold xt.
    destruct H1 as [-> | ->]; reflexivity.
  - intros m x K a A S O. unfold solid; cbn; rewrite K; reflexivity.
  - intros m x K a A S O. unfold solid; cbn; rewrite K; reflexivity.
  - intros m x K N1 N2 N3 a A S O. inv_shaped.
    cbn [tree_tokens]. rewrite symbol_text_solid by assumption. unfold solid; cbn; rewrite K; reflexivity.
  - intros m x K a A S O. inv_shaped. unfold tok_shape, xk in *.
    unfold solid, xk, tree_tokens, xt; cbn.
    destruct K as [K|[K|[K|K]]]; rewrite K in *; cbn; unfold pos_text, xt; rewrite H1; reflexivity.
  - intros m x xs ns c o K E _ IH a A S O. inv_shaped. destruct O as (O1 & O2 & O3).
    rewrite filter_cons_app, map_app. unfold solid at 1; cbn [filter]; rewrite K. cbn [map app tree_tokens].
    unfold pos_text at 1. rewrite E. f_equal.
    apply (IH (xp x + clen (x_raw x))); auto; lia.
  - intros x xs ns c o K _ IH a A S O. inv_shaped. destruct O as (O1 & O2 & O3).
    rewrite filter_cons_app, map_app. unfold solid at 1; cbn [filter]; rewrite K. cbn [map app tree_tokens].
    rewrite <- (IH (xp x + clen (x_raw x))); auto; try lia. cbn. now rewrite app_nil_r.
  - intros m x xs nd o K E _ IH a A S O. inv_shaped. destruct O as (O1 & O2 & O3).
    rewrite filter_cons_app, map_app. unfold solid at 1; cbn [filter]; rewrite K. cbn [map app tree_tokens].
    unfold pos_text at 1. rewrite E. f_equal. apply (IH (xp x + clen (x_raw x))); auto; lia.
  - intros m x xs nd o K E _ IH a A S O. inv_shaped. destruct O as (O1 & O2 & O3).
    rewrite filter_cons_app, map_app. unfold solid at 1; cbn [filter]; rewrite K. cbn [map app tree_tokens].
    unfold pos_text at 1. rewrite E. f_equal. apply (IH (xp x + clen (x_raw x))); auto; lia.
  - intros m x xs sg args o K E _ IH a A S O. inv_shaped. destruct O as (O1 & O2 & O3).
    rewrite filter_cons_app, map_app. unfold solid at 1; cbn [filter]; rewrite K. cbn [map app tree_tokens].
    unfold pos_text at 1. f_equal. apply (IH (xp x + clen (x_raw x))); auto; lia.
  - intros m c a A B S O. cbn. destruct c; reflexivity.
  - intros m c x Cl a A B S O. inv_shaped. destruct O as (O1 & O2 & O3).
    destruct B as [->|B]; [contradiction|].
    symmetry. apply closes_not_solid; auto; lia.
  - intros m c x xs nd o ys ns r o' NC _ IHn Ho _ IHl a A B S O.
    change (x :: xs ++ ys) with ((x :: xs) ++ ys) in *.
    pose proof S as S'. unfold shaped in S'. apply Forall_app in S' as [S1 S2].
    apply ordered_app in O as (O1 & o2 & O2 & O3 & _).
    rewrite flat_map_keep, <- app_assoc, filter_app, map_app by reflexivity.
    rewrite (IHl o2) by (auto; try lia; tauto || (right; destruct B; [tauto|lia]) || (destruct B as [B|B]; [left; auto|right; lia])).
    f_equal. eapply IHn; eauto.
  - intros m pk x xs ns c o Pk K _ IH a A S O. inv_shaped. destruct O as (O1 & O2 & O3).
    rewrite filter_cons_app, map_app. unfold solid at 1; cbn [filter]; rewrite K. cbn [map app tree_tokens].
    rewrite <- (IH (xp x + clen (x_raw x))); auto; try lia. cbn. now rewrite app_nil_r.
  - intros m pk x xs nd o Pk G IH. exact IH.
  - intros m pk a A S O. reflexivity.
  - intros m pk sg x xs ns c o ys args o' K _ IHl Ho _ IHa a A S O.
    inv_shaped. destruct O as (O1 & O2 & O3).
    apply ordered_app in O3 as (O4 & o2 & O5 & O6 & _).
    rewrite filter_cons_app, filter_app, !map_app. unfold solid at 1; cbn [filter]; rewrite K.
    cbn [map app flat_map tree_tokens].
    rewrite (IHa o2) by (auto; lia). f_equal.
    rewrite <- (IHl (xp x + clen (x_raw x))); auto; try lia. cbn. now rewrite app_nil_r.
  - intros m pk sg x xs ns c o ys args o' Pk K _ IHl Ho _ IHa a A S O.
    inv_shaped. destruct O as (O1 & O2 & O3).
    apply ordered_app in O3 as (O4 & o2 & O5 & O6 & _).
    rewrite filter_cons_app, filter_app, !map_app. unfold solid at 1; cbn [filter]; rewrite K.
    cbn [map app flat_map tree_tokens]. unfold pos_text at 1.
    unfold tok_shape in H1. unfold xk in K. rewrite K in H1. unfold xt. rewrite H1. cbn [app]. f_equal.
    rewrite (IHa o2) by (auto; lia). f_equal.
    rewrite <- (IHl (xp x + clen (x_raw x))); auto; lia.
  - intros m pk sg xs args o Pk _ IHa. exact IHa.
Qed.

(** Outside math, spaces are recorded too. *)
Definition no_dollar (xs : list lexeme) : Prop :=
  Forall (fun l => ~ (xk l = KSymbol /\ xt l = "$")) xs.

Lemma grammar_tokens_sp :
  (forall m xs nd o, GNode m xs nd o -> forall a, m = false -> no_dollar xs ->
     0 <= a -> shaped xs -> ordered_from a xs ->
     tree_tokens_sp nd = map pos_text (filter solid_sp xs)) /\
  (forall m c xs ns r o, GLoop m c xs ns r o ->
     forall a, m = false -> no_dollar xs -> 0 <= a -> (c = CNone \/ 0 < a) -> shaped xs -> ordered_from a xs ->
     flat_map tree_tokens_sp ns ++ closed_pos c r = map pos_text (filter solid_sp xs)) /\
  (forall m pk xs nd o, GScript m pk xs nd o -> forall a, m = false -> no_dollar xs ->
     0 <= a -> shaped xs -> ordered_from a xs ->
     tree_tokens_sp nd = map pos_text (filter solid_sp xs)) /\
  (forall m pk sg xs args o, GArgs m pk sg xs args o ->
     forall a, m = false -> no_dollar xs -> 0 < a -> shaped xs -> ordered_from a xs ->
     flat_map tree_tokens_sp args = map pos_text (filter solid_sp xs)).
Proof.
  unfold no_dollar.
  apply (G_mutind known_macro).
  - intros m x K a M D A S O. unfold solid_sp; cbn; rewrite K; reflexivity.
  - discriminate.
  - intros x K a M D A S O. unfold solid_sp; cbn; rewrite K. reflexivity.
  - intros m x K a M D A S O. unfold solid_sp; cbn; rewrite K; reflexivity.
  - intros m x K a M D A S O. unfold solid_sp; cbn; rewrite K; reflexivity.
  - intros m x K N1 N2 N3 a M D A S O. unfold solid_sp; cbn; rewrite K; reflexivity.
  - intros m x K a M D A S O. 
    unfold solid_sp, tree_tokens_sp; cbn.
    destruct K as [K|[K|[K|K]]]; rewrite K in *; reflexivity.
  - intros m x xs ns c o K E _ IH a M D A S O. inv_shaped. tauto.
  - discriminate.
  - intros m x xs nd o K E _ IH a M D A S O. inv_shaped. destruct O as (O1 & O2 & O3).
    rewrite filter_cons_app, map_app. unfold solid_sp at 1; cbn [filter]; rewrite K. cbn [map app tree_tokens_sp].
    unfold pos_text at 1. rewrite E. f_equal. apply (IH (xp x + clen (x_raw x))); auto; lia.
  - intros m x xs nd o K E _ IH a M D A S O. inv_shaped. destruct O as (O1 & O2 & O3).
    rewrite filter_cons_app, map_app. unfold solid_sp at 1; cbn [filter]; rewrite K. cbn [map app tree_tokens_sp].
    unfold pos_text at 1. rewrite E. f_equal. apply (IH (xp x + clen (x_raw x))); auto; lia.
  - intros m x xs sg args o K E _ IH a M D A S O. inv_shaped. destruct O as (O1 & O2 & O3).
    rewrite filter_cons_app, map_app. unfold solid_sp at 1; cbn [filter]; rewrite K. cbn [map app tree_tokens_sp].
    unfold pos_text at 1. f_equal. apply (IH (xp x + clen (x_raw x))); auto; lia.
  - intros m c a M D A B S O. cbn. destruct c; reflexivity.
  - intros m c x Cl a M D A B S O. inv_shaped. destruct O as (O1 & O2 & O3).
    destruct B as [->|B]; [contradiction|].
    symmetry. apply closes_not_solid; auto; lia.
  - intros m c x xs nd o ys ns r o' NC _ IHn Ho _ IHl a M D A B S O.
    change (x :: xs ++ ys) with ((x :: xs) ++ ys) in *.
    pose proof S as S'. unfold shaped in S'. apply Forall_app in S' as [S1 S2].
    apply Forall_app in D as [D1 D2].
    apply ordered_app in O as (O1 & o2 & O2 & O3 & _).
    rewrite flat_map_keep, <- app_assoc, filter_app, map_app by reflexivity.
    rewrite (IHl o2) by (first [assumption | lia | destruct B as [B|B]; [left; exact B|right; lia]]).
    f_equal. eapply IHn; eauto.
  - intros m pk x xs ns c o Pk K _ IH a M D A S O. inv_shaped. destruct O as (O1 & O2 & O3).
    rewrite filter_cons_app, map_app. unfold solid_sp at 1; cbn [filter]; rewrite K. cbn [map app tree_tokens_sp].
    rewrite <- (IH (xp x + clen (x_raw x))); auto; try lia. cbn. now rewrite app_nil_r.
  - intros m pk x xs nd o Pk G IH. exact IH.
  - intros m pk a M D A S O. reflexivity.
  - intros m pk sg x xs ns c o ys args o' K _ IHl Ho _ IHa a M D A S O.
    inv_shaped. destruct O as (O1 & O2 & O3).
    apply ordered_app in O3 as (O4 & o2 & O5 & O6 & _).
    rewrite filter_cons_app, filter_app, !map_app. unfold solid_sp at 1; cbn [filter]; rewrite K.
    cbn [map app flat_map tree_tokens_sp].
    rewrite (IHa o2) by (auto; lia). f_equal.
    rewrite <- (IHl (xp x + clen (x_raw x))); auto; try lia. cbn. now rewrite app_nil_r.
  - intros m pk sg x xs ns c o ys args o' Pk K _ IHl Ho _ IHa a M D A S O.
    inv_shaped. destruct O as (O1 & O2 & O3).
    apply ordered_app in O3 as (O4 & o2 & O5 & O6 & _).
    rewrite filter_cons_app, filter_app, !map_app. unfold solid_sp at 1; cbn [filter]; rewrite K.
    cbn [map app flat_map tree_tokens_sp]. unfold pos_text at 1.
    match goal with H : tok_shape U (x_tok x) |- _ => unfold tok_shape in H; unfold xk in K; rewrite K in H; unfold xt; rewrite H end.
    cbn [app]. f_equal.
    rewrite (IHa o2) by (auto; lia). f_equal.
    rewrite <- (IHl (xp x + clen (x_raw x))); auto; lia.
  - intros m pk sg xs args o Pk _ IHa. exact IHa.
Qed.

(** *** No blank symbol inside math *)
Definition no_blank (ns : list node) : Prop :=
  forall n, In n (flat_map subnodes ns) -> is_blank n = false.
Definition blank_ok (m : bool) (ns : list node) : Prop :=
  (m = true -> no_blank ns) /\
  (forall n, In n (flat_map subnodes ns) -> no_blank (match n with NMath _ _ l _ => l | _ => [] end)).

Lemma blank_ok_keep m n ns : blank_ok m [n] -> blank_ok m ns -> blank_ok m (keep n ns).
Proof using. clear U.
  intros [A B] [C D]. split.
  - intros M x Hx. apply In_subnodes_keep in Hx as [Hx|Hx]; [|now apply C].
    apply A; auto. cbn. now rewrite app_nil_r.
  - intros x Hx. apply In_subnodes_keep in Hx as [Hx|Hx]; [|now apply D].
    apply B; auto. cbn. now rewrite app_nil_r.
Qed.

Lemma blank_ok_wrap m n ns :
  (m = true -> is_blank n = false) -> (forall x, In x (subnodes n) -> x = n \/ In x (flat_map subnodes ns)
     \/ exists p t, x = NIdent p t) ->
  (match n with NMath _ _ l _ => no_blank l | _ => True end) ->
  blank_ok m ns -> blank_ok m [n].
Proof using. clear U.
  intros B H M [C D]. split.
  - intros E x Hx. cbn in Hx. rewrite app_nil_r in Hx. apply H in Hx as [->|[Hx|(p & t & ->)]]; auto.
    now apply C.
  - intros x Hx. cbn in Hx. rewrite app_nil_r in Hx. apply H in Hx as [->|[Hx|(p & t & ->)]]; auto.
    + destruct n; auto; intros y [].
    + intros y [].
Qed.

Lemma blank_ok_mode ns m : blank_ok true ns -> blank_ok m ns.
Proof using. clear U. intros [A B]. split; auto. Qed.

Lemma blank_ok_cons m n ns : blank_ok m [n] -> blank_ok m ns -> blank_ok m (n :: ns).
Proof using. clear U.
  intros [A B] [C D]. cbn in A, B. rewrite app_nil_r in B.
  split.
  - intros M x Hx. cbn in Hx. apply in_app_or in Hx as [Hx|Hx]; [|now apply C].
    apply A; auto. cbn. now rewrite app_nil_r.
  - intros x Hx. cbn in Hx. apply in_app_or in Hx as [Hx|Hx]; [|now apply D]. auto.
Qed.

Lemma grammar_blank :
  (forall m xs nd o, GNode m xs nd o -> shaped xs -> blank_ok m [nd]) /\
  (forall m c xs ns r o, GLoop m c xs ns r o -> shaped xs -> blank_ok m ns) /\
  (forall m pk xs nd o, GScript m pk xs nd o -> shaped xs -> blank_ok m [nd]) /\
  (forall m pk sg xs args o, GArgs m pk sg xs args o -> shaped xs -> blank_ok m args).
Proof.
  assert (Z0 : forall m, blank_ok m []) by (intros m; split; [intros _ x []|intros x []]).
  assert (L : forall m n, (m = true -> is_blank n = false) -> subnodes n = [n] ->
    (match n with NMath _ _ l _ => no_blank l | _ => True end) -> blank_ok m [n]).
  { intros m n B S M. apply (blank_ok_wrap m n []); auto. rewrite S. intros x [<-|[]]; auto. }
  apply (G_mutind known_macro).
  - intros m x K S. apply L; auto.
  - intros x K S. apply L; auto.
  - intros x K S. apply L; auto. discriminate.
  - intros m x K S. apply L; auto.
  - intros m x K S. apply L; auto.
  - intros m x K N1 N2 N3 S. inv_shaped. apply L; auto. intros _. now apply symbol_text_solid.
  - intros m x K S. inv_shaped. apply L; auto. intros _. cbn.
    unfold tok_shape, xk, xt in *. destruct K as [K|[K|[K|K]]]; rewrite K in *; rewrite H1; reflexivity.
  - intros m x xs ns c o K E _ IH S. inv_shaped. specialize (IH H2).
    apply blank_ok_wrap with (ns := ns); auto.
    + intros y [<-|H]; auto.
    + apply IH; auto.
    + now apply blank_ok_mode.
  - intros x xs ns c o K _ IH S. inv_shaped.
    apply blank_ok_wrap with (ns := ns); auto. intros y [<-|H]; auto.
  - intros m x xs nd o K E _ IH S. inv_shaped.
    apply blank_ok_wrap with (ns := [nd]); auto. intros y [<-|H]; auto. cbn; rewrite app_nil_r; auto.
  - intros m x xs nd o K E _ IH S. inv_shaped.
    apply blank_ok_wrap with (ns := [nd]); auto. intros y [<-|H]; auto. cbn; rewrite app_nil_r; auto.
  - intros m x xs sg args o K E _ IH S. inv_shaped.
    apply blank_ok_wrap with (ns := args); auto. intros y [<-|[<-|H]]; eauto.
  - auto.
  - auto.
  - intros m c x xs nd o ys ns r o' NC _ IHn Ho _ IHl S.
    change (x :: xs ++ ys) with ((x :: xs) ++ ys) in *. apply Forall_app in S as [S1 S2].
    apply blank_ok_keep; auto.
  - intros m pk x xs ns c o Pk K _ IH S. inv_shaped.
    apply blank_ok_wrap with (ns := ns); auto. intros y [<-|H]; auto.
  - auto.
  - auto.
  - intros m pk sg x xs ns c o ys args o' K _ IHl Ho _ IHa S. inv_shaped.
    apply blank_ok_cons; [|auto]. apply blank_ok_wrap with (ns := ns); auto. intros y [<-|H']; auto.
  - intros m pk sg x xs ns c o ys args o' Pk K _ IHl Ho _ IHa S. inv_shaped.
    apply blank_ok_cons; [|auto]. apply blank_ok_wrap with (ns := ns); auto. intros y [<-|H']; auto.
  - auto.
Qed.

(** *** Every macro token is known *)
Definition macros_known (xs : list lexeme) : Prop :=
  Forall (fun l => xk l = KMacro -> known_macro (xt l) <> None) xs.

Lemma grammar_known :
  (forall m xs nd o, GNode m xs nd o -> macros_known xs) /\
  (forall m c xs ns r o, GLoop m c xs ns r o -> macros_known xs) /\
  (forall m pk xs nd o, GScript m pk xs nd o -> macros_known xs) /\
  (forall m pk sg xs args o, GArgs m pk sg xs args o -> macros_known xs).
Proof using. clear U.
  unfold macros_known. apply (G_mutind known_macro); intros; auto;
    repeat match goal with
    | H : _ \/ _ |- _ => destruct H
    | |- Forall _ (_ :: _) => constructor
    | |- Forall _ (_ ++ _) => apply Forall_app; split
    end; auto; try congruence.
  - destruct cl; cbn in *; intuition congruence.
  - now inv H1.
  - now inv H1.
Qed.

(** *** No other tokens than those the grammar handles: strings never parse *)
Lemma grammar_no_other :
  (forall m xs nd o, GNode m xs nd o -> Forall (fun l => xk l <> KOther) xs) /\
  (forall m c xs ns r o, GLoop m c xs ns r o -> Forall (fun l => xk l <> KOther) xs) /\
  (forall m pk xs nd o, GScript m pk xs nd o -> Forall (fun l => xk l <> KOther) xs) /\
  (forall m pk sg xs args o, GArgs m pk sg xs args o -> Forall (fun l => xk l <> KOther) xs).
Proof using. clear U.
  apply (G_mutind known_macro); intros; auto;
    repeat match goal with
    | H : _ \/ _ |- _ => destruct H
    | |- Forall _ (_ :: _) => constructor
    | |- Forall _ (_ ++ _) => apply Forall_app; split
    end; auto; try congruence.
  - destruct cl; cbn in *; intuition congruence.
  - now inv H1.
  - now inv H1.
Qed.

End WithLetters.
