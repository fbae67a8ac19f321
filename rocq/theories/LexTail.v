(** How a token is affected by what follows it. *)
From Coq Require Import ZArith String Ascii List Bool Lia ZifyBool.
From Verif Require Import Utf8 GoScanner Token Lexer Utf8Facts LexFacts LexText Grammar BoundarySpec.
Import ListNotations.
Local Open Scope string_scope.
Local Open Scope list_scope.
Local Open Scope Z_scope.

(** The character [c] does not continue the text/scanner token [a] of kind [k]. *)
Definition nostick U (k : gkind) (a : list chr) (c : Z) : bool :=
  match k with
  | GEOF | GString => false
  | GIdent => negb (is_letter U c)
  | GInt | GFloat => num_stop a c
  | GRune r => negb ((r =? 46) && is_decimal c)
  end.

Definition nostick_tail U k a (t : list chr) : Prop :=
  match t with [] => True | c :: _ => nostick U k a (c_rune c) = true end.

Lemma span_tail p l a b t :
  span p l = (a, b) ->
  (b = [] -> match t with [] => True | c :: _ => p (c_rune c) = false end) ->
  span p (l ++ t) = (a, b ++ t).
Proof.
  intros H T. apply span_spec in H as (-> & F & B). apply span_all; [now rewrite app_assoc|assumption|].
  destruct b as [|c b]; cbn [app]; [now apply T|exact B].
Qed.

Definition num_tail (a t : list chr) : Prop :=
  match t with [] => True | c :: _ => num_stop a (c_rune c) = true end.

Lemma num_stop_dig a c hex : num_stop a c = true -> is_dig hex c = false.
Proof.
  unfold num_stop, is_dig, is_hex, is_ascii_letter, is_decimal, in_range. destruct hex; lia.
Qed.

Lemma num_stop_exp a c : num_stop a c = true -> is_exp c = false.
Proof. unfold num_stop, is_exp, is_ascii_letter, in_range. lia. Qed.

Lemma num_tail_suffix a b t : b <> [] -> num_tail (a ++ b) t -> num_tail b t.
Proof.
  intros N. unfold num_tail, num_stop. destruct t as [|c t]; [auto|]. rewrite rev_app_distr.
  destruct (rev b) eqn:E; [|auto]. apply (f_equal (@List.length _)) in E. rewrite rev_length in E.
  destruct b; [congruence|discriminate].
Qed.

Lemma num_tail_dig a t hex : num_tail a t ->
  match t with [] => True | c :: _ => is_dig hex (c_rune c) = false end.
Proof. destruct t; cbn; [auto|]. apply num_stop_dig. Qed.

Lemma scan_exponent_tail l f a b t :
  scan_exponent l = (f, a, b) -> (b = [] -> num_tail a t) ->
  scan_exponent (l ++ t) = (f, a, b ++ t).
Proof.
  unfold scan_exponent. destruct l as [|c l1].
  - intros [= <- <- <-] T. specialize (T eq_refl). cbn [app]. destruct t as [|d t]; [reflexivity|].
    cbn in T. apply num_stop_exp in T. unfold is_exp in T. now rewrite T.
  - cbn [app]. fold (is_exp (c_rune c)). destruct (is_exp (c_rune c)) eqn:E.
    2:{ intros [= <- <- <-] _. reflexivity. }
    destruct l1 as [|d l2].
    + cbn. intros [= <- <- <-] T. specialize (T eq_refl). destruct t as [|d t]; [reflexivity|].
      cbn in T. assert (S : (c_rune d =? 43) || (c_rune d =? 45) = false).
      { unfold num_stop in T. cbn in T. rewrite E in T. lia. }
      cbn [app]. rewrite S. cbn [span]. now rewrite (num_stop_dig _ _ false T).
    + cbn [app]. destruct ((c_rune d =? 43) || (c_rune d =? 45)).
      * destruct (span (is_dig false) l2) as [ds l3] eqn:Sp. intros [= <- <- <-] T.
        rewrite (span_tail _ _ _ _ t Sp); [reflexivity|]. intros Hb. eapply num_tail_dig. auto.
      * destruct (span (is_dig false) (d :: l2)) as [ds l3] eqn:Sp. intros [= <- <- <-] T.
        change (d :: l2 ++ t) with ((d :: l2) ++ t).
        rewrite (span_tail _ _ _ _ t Sp); [reflexivity|]. intros Hb. eapply num_tail_dig. auto.
Qed.

Lemma scan_frac_tail hex l a b t :
  scan_frac hex l = (a, b) -> (b = [] -> num_tail a t) ->
  scan_frac hex (l ++ t) = (a, b ++ t).
Proof.
  unfold scan_frac. destruct (span (is_dig hex) l) as [ds l1] eqn:S.
  destruct (scan_exponent l1) as [[f e] l2] eqn:X. intros [= <- <-] T.
  pose proof (scan_exponent_split _ _ _ _ X) as El.
  rewrite (span_tail _ _ _ _ t S).
  - rewrite (scan_exponent_tail _ _ _ _ t X); [reflexivity|].
    intros Hb. specialize (T Hb). destruct e as [|x e].
    + destruct t as [|c t]; [exact I|]. cbn in T |- *. unfold num_stop in *. cbn. lia.
    + eapply num_tail_suffix; [|exact T]. discriminate.
  - intros ->. destruct e; [|discriminate El]. destruct l2; [|discriminate El].
    eapply num_tail_dig. apply T. reflexivity.
Qed.

(** The part of scan_number after the prefix. *)
Definition number_body (pre : list chr) (hex : bool) (l1 : list chr) : gkind * list chr * list chr :=
  let (ds, l2) := span (is_dig hex) l1 in
  match l2 with
  | d :: l3 =>
    if c_rune d =? 46 then
      let (f, l4) := scan_frac hex l3 in (GFloat, pre ++ ds ++ d :: f, l4)
    else
      match scan_exponent l2 with
      | (isf, e, l4) => (if isf then GFloat else GInt, pre ++ ds ++ e, l4)
      end
  | [] => (GInt, pre ++ ds, [])
  end.

(** Everything except the sign rule does not depend on the consumed part. *)
Lemma num_tail_nil a t : num_tail a t -> num_tail [] t.
Proof. destruct t as [|c t]; cbn; [auto|]. unfold num_stop. cbn. lia. Qed.

Lemma number_body_tail pre hex l k a b t :
  number_body pre hex l = (k, a, b) -> (b = [] -> num_tail a t) ->
  number_body pre hex (l ++ t) = (k, a, b ++ t).
Proof.
  unfold number_body. destruct (span (is_dig hex) l) as [ds l2] eqn:S.
  destruct l2 as [|d l3].
  - intros [= <- <- <-] T. specialize (T eq_refl).
    rewrite (span_tail _ _ _ _ t S) by (intros _; eapply num_tail_dig; exact T).
    cbn [app]. destruct t as [|c t]; [reflexivity|]. cbn in T.
    assert (E : (c_rune c =? 46) = false) by (unfold num_stop in T; lia). rewrite E.
    pose proof (scan_exponent_tail [] false [] [] (c :: t) eq_refl (fun _ => num_tail_nil (pre ++ ds) (c :: t) T)) as X.
    cbn [app] in X. rewrite X. now rewrite app_nil_r.
  - intros H T. rewrite (span_tail _ _ _ _ t S) by discriminate. cbn [app].
    destruct (c_rune d =? 46).
    + destruct (scan_frac hex l3) as [f l4] eqn:F. inv H.
      rewrite (scan_frac_tail _ _ _ _ t F); [reflexivity|]. intros Hb. specialize (T Hb).
      destruct f as [|x f]; [eapply num_tail_nil; exact T|].
      replace (pre ++ ds ++ d :: x :: f) with ((pre ++ ds ++ [d]) ++ x :: f) in T
        by now rewrite <- !app_assoc.
      eapply num_tail_suffix; [|exact T]. discriminate.
    + change (d :: l3 ++ t) with ((d :: l3) ++ t).
      destruct (scan_exponent (d :: l3)) as [[f e] l4] eqn:X. inv H.
      rewrite (scan_exponent_tail _ _ _ _ t X); [reflexivity|]. intros Hb. specialize (T Hb).
      destruct e as [|x e]; [eapply num_tail_nil; exact T|].
      rewrite app_assoc in T. eapply num_tail_suffix; [|exact T]. discriminate.
Qed.

Lemma scan_number_body l :
  scan_number l =
  match l with
  | z :: l1 =>
    if c_rune z =? 48 then
      match l1 with
      | c :: l2 =>
        let r := c_rune c in
        if (r =? 120) || (r =? 88) then number_body [z; c] true l2
        else if (r =? 111) || (r =? 79) || (r =? 98) || (r =? 66) then number_body [z; c] false l2
        else number_body [z] false l1
      | [] => number_body [z] false l1
      end
    else number_body [] false l
  | [] => number_body [] false []
  end.
Proof.
  unfold scan_number, number_body. destruct l as [|z l1]; [reflexivity|].
  destruct (c_rune z =? 48); [|reflexivity]. destruct l1 as [|c l2]; [reflexivity|].
  cbv zeta. destruct (_ || _); [reflexivity|]. destruct (_ || _); reflexivity.
Qed.

Lemma number_body_one z : number_body [z] false [] = (GInt, [z], []).
Proof. reflexivity. Qed.

Lemma scan_number_tail2 l k a b t :
  l <> [] -> scan_number l = (k, a, b) -> (b = [] -> num_tail a t) ->
  scan_number (l ++ t) = (k, a, b ++ t).
Proof.
  intros N H T. rewrite scan_number_body in *. destruct l as [|z l1]; [congruence|]. cbn [app].
  destruct (c_rune z =? 48).
  - destruct l1 as [|c l2].
    + rewrite number_body_one in H. inv H. specialize (T eq_refl). cbn [app].
      destruct t as [|c t]; [reflexivity|]. cbn in T.
      assert (E1 : (c_rune c =? 120) || (c_rune c =? 88) = false)
        by (unfold num_stop, is_ascii_letter, in_range in T; lia).
      assert (E2 : (c_rune c =? 111) || (c_rune c =? 79) || (c_rune c =? 98) || (c_rune c =? 66) = false)
        by (unfold num_stop, is_ascii_letter, in_range in T; lia).
      cbv zeta. rewrite E1, E2.
      apply (number_body_tail [z] false [] GInt [z] [] (c :: t)); [reflexivity|]. intros _. exact T.
    + cbn [app]. cbv zeta in *. destruct (_ || _); [now apply number_body_tail|].
      destruct (_ || _); [now apply number_body_tail|].
      change (c :: l2 ++ t) with ((c :: l2) ++ t). now apply number_body_tail.
  - change (z :: l1 ++ t) with ((z :: l1) ++ t). now apply number_body_tail.
Qed.

Lemma scan_string_tail esc l a b t :
  scan_string esc l = (a, b) -> b <> [] -> scan_string esc (l ++ t) = (a, b ++ t).
Proof.
  revert esc a b; induction l as [|c l IH]; cbn [scan_string app]; intros esc a b H N.
  - inv H. congruence.
  - destruct (esc && simple_escape (c_rune c)).
    + destruct (scan_string false l) as [a' b'] eqn:E. inv H. erewrite IH; eauto.
    + destruct ((c_rune c =? 34) || (c_rune c =? 10)); [now inv H|].
      destruct (scan_string (c_rune c =? 92) l) as [a' b'] eqn:E. inv H. erewrite IH; eauto.
Qed.

Section WithLetters.
Variable U : Z -> bool.
Notation gscan := (gscan U).
Notation lex1 := (lex1 U).
Notation scan_comment := (scan_comment U).

Lemma gscan_tail ws l k sk a b t :
  gscan ws l = (k, sk, a, b) -> k <> GEOF -> (b = [] -> nostick_tail U k a t) ->
  gscan ws (l ++ t) = (k, sk, a, b ++ t).
Proof.
  unfold GoScanner.gscan. intros H NE T.
  assert (Sp : (if ws then span is_ws (l ++ t) else ([], l ++ t)) =
               (let (x, y) := if ws then span is_ws l else ([], l) in (x, y ++ t)) /\
               (snd (if ws then span is_ws l else ([], l)) <> []) \/ True) by auto.
  clear Sp.
  destruct (if ws then span is_ws l else ([], l)) as [sk0 l0] eqn:S0.
  assert (S1 : l0 <> [] -> (if ws then span is_ws (l ++ t) else ([], l ++ t)) = (sk0, l0 ++ t)).
  { intros N. destruct ws; [|now inv S0]. apply span_tail; [assumption|]. intros E; congruence. }
  destruct l0 as [|c l']; [inv H; congruence|].
  rewrite S1 by discriminate. cbn [app].
  destruct (is_letter U (c_rune c)) eqn:EL.
  { destruct (span (is_letter U) l') as [a' b'] eqn:Sp. inv H.
    rewrite (span_tail _ _ _ _ t Sp); [reflexivity|]. intros Hb. specialize (T Hb).
    destruct t as [|d t]; [exact I|]. cbn in T. now apply negb_true_iff in T. }
  destruct (is_decimal (c_rune c)) eqn:ED.
  { destruct (scan_number (c :: l')) as [[k' a'] b'] eqn:S. inv H.
    pose proof (scan_number_split _ _ _ _ S) as (_ & K & _).
    change (c :: l' ++ t) with ((c :: l') ++ t).
    rewrite (scan_number_tail2 (c :: l') _ _ _ t ltac:(discriminate) S); [reflexivity|].
    intros Hb. specialize (T Hb). destruct t; [exact I|]. destruct K as [-> | ->]; exact T. }
  destruct (c_rune c =? 34) eqn:EQ.
  { destruct (scan_string false l') as [a' b'] eqn:S. inv H.
    destruct t as [|d t]; [rewrite !app_nil_r; now rewrite S|].
    rewrite (scan_string_tail _ _ _ _ (d :: t) S); [reflexivity|].
    intros Hb. specialize (T Hb). cbn in T. discriminate T. }
  destruct (c_rune c =? 46) eqn:E46.
  { destruct l' as [|d l2].
    - inv H. specialize (T eq_refl). cbn [app]. destruct t as [|d t]; [reflexivity|].
      cbn in T. rewrite E46 in T. cbn in T. apply negb_true_iff in T. now rewrite T.
    - cbn [app]. destruct (is_decimal (c_rune d)) eqn:Dd.
      + destruct (scan_frac false (d :: l2)) as [a' b'] eqn:S. inv H.
        change (d :: l2 ++ t) with ((d :: l2) ++ t).
        rewrite (scan_frac_tail _ _ _ _ t S); [reflexivity|].
        intros Hb. specialize (T Hb). destruct t as [|x t]; [exact I|].
        assert (Na : a' <> []).
        { apply scan_frac_split in S. subst b. rewrite app_nil_r in S. congruence. }
        apply (num_tail_suffix [c]); [assumption|]. exact T.
      + inv H. reflexivity. }
  inv H. reflexivity.
Qed.

(** Fuel for comments. *)
Lemma scan_comment_fuel n l : (List.length l < n)%nat -> 
  scan_comment n l = scan_comment (S (List.length l)) l.
Proof.
  intros H. remember (List.length l) as m eqn:Em. assert (Hm : (List.length l <= m)%nat) by lia.
  clear Em. revert n l H Hm; induction m as [m IH] using lt_wf_ind. intros n l H Hm.
  destruct n as [|n]; [lia|]. cbn [Lexer.scan_comment].
  destruct (gscan false l) as [[[k sk] a] b] eqn:G.
  pose proof (gscan_progress _ _ _ _ _ _ _ G) as P.
  apply gscan_split in G as (E & _ & Sk & _). rewrite Sk in E by reflexivity. cbn in E.
  assert (L : k <> GEOF -> (List.length b < m)%nat).
  { intros K. specialize (P K). rewrite E, app_length in Hm. destruct a; [congruence|cbn in Hm; lia]. }
  assert (C : k <> GEOF -> scan_comment n b = scan_comment m b).
  { intros K. specialize (L K).
    rewrite (IH (List.length b)) by lia.
    symmetry. destruct m as [|m']; [lia|]. apply (IH (List.length b)); lia. }
  destruct k; first [reflexivity | rewrite C by discriminate; reflexivity].
Qed.

(** A comment followed by something inside the first part. *)
Lemma scan_comment_tail n m l t a b tl :
  scan_comment n l = (t, a, b) -> b <> [] -> (List.length l < n)%nat ->
  (List.length (l ++ tl) < m)%nat ->
  scan_comment m (l ++ tl) = (t, a, b ++ tl).
Proof.
  revert m l t a b; induction n as [|n IH]; intros m l t a b H N L M; [lia|].
  destruct m as [|m]; [lia|]. cbn [Lexer.scan_comment] in *.
  destruct (gscan false l) as [[[k sk] a1] b1] eqn:G.
  pose proof (gscan_progress _ _ _ _ _ _ _ G) as P.
  pose proof (gscan_split _ _ _ _ _ _ _ G) as (E & _ & Sk & _ & K). rewrite Sk in E by reflexivity. cbn in E.
  destruct k as [| | | | |r].
  { inv H. destruct K; congruence. }
  all: assert (B1 : b1 <> []) by
    (intros ->; first
      [ destruct (scan_comment n []) as [[t' a'] b'] eqn:Sc; apply scan_comment_split in Sc;
        symmetry in Sc; apply app_eq_nil in Sc as [-> ->]; try (inv H; congruence);
        destruct (r =? 10); inv H; congruence ]).
  all: rewrite (gscan_tail _ _ _ _ _ _ tl G) by (try discriminate; intros; congruence).
  all: specialize (P ltac:(discriminate)).
  all: rewrite E, ?app_length in *; destruct a1 as [|c1 a1]; [congruence|]; cbn [List.length] in *.
  all: try (destruct (scan_comment n b1) as [[t' a'] b'] eqn:Sc; inv H;
    erewrite (IH m); [reflexivity|eassumption|assumption|lia|rewrite app_length; lia]).
  destruct (r =? 10); [now inv H|].
  destruct (scan_comment n b1) as [[t' a'] b'] eqn:Sc; inv H.
  erewrite (IH m); [reflexivity|eassumption|assumption|lia|rewrite app_length; lia].
Qed.

(** Characters of identifiers and numbers are not control characters. *)
Definition vis (c : chr) : Prop := 32 < c_rune c.

Lemma dig_vis hex ds : Forall (fun c => is_dig hex (c_rune c) = true) ds -> Forall vis ds.
Proof.
  apply Forall_impl. intros c Hc. unfold vis, is_dig, is_hex, is_decimal, in_range in *. destruct hex; lia.
Qed.

Lemma scan_exponent_vis l f a b : scan_exponent l = (f, a, b) -> Forall vis a.
Proof.
  unfold scan_exponent. destruct l as [|c l1]; [intros [= <- <- <-]; constructor|].
  fold (is_exp (c_rune c)). destruct (is_exp (c_rune c)) eqn:E; [|intros [= <- <- <-]; constructor].
  assert (Ec : vis c) by (unfold vis, is_exp in *; lia).
  destruct l1 as [|d l2].
  - cbn. intros [= <- <- <-]. auto.
  - destruct ((c_rune d =? 43) || (c_rune d =? 45)) eqn:Sg.
    + destruct (span (is_dig false) l2) as [ds l3] eqn:Sp. intros [= <- <- <-].
      apply span_spec in Sp as (_ & F & _). constructor; [assumption|].
      constructor; [unfold vis; lia|]. eapply dig_vis; eassumption.
    + destruct (span (is_dig false) (d :: l2)) as [ds l3] eqn:Sp. intros [= <- <- <-].
      apply span_spec in Sp as (_ & F & _). constructor; [assumption|]. eapply dig_vis; eassumption.
Qed.

Lemma scan_frac_vis hex l a b : scan_frac hex l = (a, b) -> Forall vis a.
Proof.
  unfold scan_frac. destruct (span (is_dig hex) l) as [ds l1] eqn:S.
  destruct (scan_exponent l1) as [[f e] l2] eqn:Ex. intros [= <- <-].
  apply span_spec in S as (_ & F & _). apply Forall_app; split.
  - eapply dig_vis; eassumption.
  - eapply scan_exponent_vis; eassumption.
Qed.

Lemma number_body_vis pre hex l k a b : number_body pre hex l = (k, a, b) -> Forall vis pre -> Forall vis a.
Proof.
  unfold number_body. destruct (span (is_dig hex) l) as [ds l2] eqn:S.
  apply span_spec in S as (_ & F & _). apply dig_vis in F.
  destruct l2 as [|d l3].
  - intros [= <- <- <-] P. apply Forall_app; split; auto.
  - destruct (c_rune d =? 46) eqn:E.
    + destruct (scan_frac hex l3) as [f l4] eqn:Ef. intros [= <- <- <-] P.
      apply Forall_app; split; auto. apply Forall_app; split; auto.
      constructor; [unfold vis; lia|]. eapply scan_frac_vis; eassumption.
    + destruct (scan_exponent (d :: l3)) as [[f e] l4] eqn:Ex. intros [= <- <- <-] P.
      apply Forall_app; split; auto. apply Forall_app; split; auto. eapply scan_exponent_vis; eassumption.
Qed.

Lemma scan_number_vis l k a b : scan_number l = (k, a, b) ->
  match l with c :: _ => is_decimal (c_rune c) = true | [] => False end -> Forall vis a.
Proof.
  rewrite scan_number_body. destruct l as [|z l1]; [contradiction|]. intros H Z.
  assert (Ez : vis z) by (unfold vis, is_decimal, in_range in *; lia).
  destruct (c_rune z =? 48).
  - destruct l1 as [|c l2]; [apply number_body_vis in H; auto|]. cbv zeta in H.
    destruct ((c_rune c =? 120) || (c_rune c =? 88)) eqn:E1.
    { apply number_body_vis in H; auto. constructor; auto. constructor; auto. unfold vis; lia. }
    destruct ((c_rune c =? 111) || (c_rune c =? 79) || (c_rune c =? 98) || (c_rune c =? 66)) eqn:E2.
    { apply number_body_vis in H; auto. constructor; auto. constructor; auto. unfold vis; lia. }
    apply number_body_vis in H; auto.
  - apply number_body_vis in H; auto.
Qed.

Lemma letter_vis l : Forall (fun c => is_letter U (c_rune c) = true) l -> Forall vis l.
Proof.
  apply Forall_impl. intros c. unfold vis, is_letter, is_ascii_letter, in_range.
  destruct (c_rune c <? 128) eqn:E; lia.
Qed.

Lemma gscan_vis l k sk a b :
  gscan false l = (k, sk, a, b) -> k <> GString -> (forall r, k <> GRune r) -> Forall vis a.
Proof.
  unfold GoScanner.gscan. destruct l as [|c l']; [intros [= <- <- <- <-]; constructor|].
  destruct (is_letter U (c_rune c)) eqn:EL.
  { destruct (span (is_letter U) l') as [a' b'] eqn:S. intros [= <- <- <- <-] _ _.
    apply span_spec in S as (_ & F & _). apply letter_vis. constructor; assumption. }
  destruct (is_decimal (c_rune c)) eqn:ED.
  { destruct (scan_number (c :: l')) as [[k' a'] b'] eqn:S. intros [= <- <- <- <-] _ _.
    eapply scan_number_vis; eauto. }
  destruct (c_rune c =? 34).
  { destruct (scan_string false l') as [a' b']. intros [= <- <- <- <-]; congruence. }
  destruct (c_rune c =? 46) eqn:E46.
  { destruct l' as [|d l2].
    - intros [= <- <- <- <-] _ N. exfalso. eapply N. reflexivity.
    - destruct (is_decimal (c_rune d)).
      + destruct (scan_frac false (d :: l2)) as [a' b'] eqn:S. intros [= <- <- <- <-] _ _.
        constructor; [unfold vis; lia|]. eapply scan_frac_vis; eauto.
      + intros [= <- <- <- <-] _ N. exfalso. eapply N. reflexivity. }
  intros [= <- <- <- <-] _ N. exfalso. eapply N. reflexivity.
Qed.

(** The text of a comment: its line without carriage returns. *)
Definition not_cr (c : chr) : bool := negb (c_rune c =? 13).

Lemma vis_not_cr l : Forall vis l -> filter not_cr l = l.
Proof.
  induction 1 as [|c l Hc H IH]; cbn; [reflexivity|].
  unfold not_cr, vis in *. rewrite IH. replace (c_rune c =? 13) with false by lia. reflexivity.
Qed.

(** A comment without double quotes ends with its line. *)
Lemma scan_comment_line n body nl rest :
  c_rune nl = 10 -> Forall (fun c => c_rune c <> 10 /\ c_rune c <> 34) body ->
  (List.length (body ++ nl :: rest) < n)%nat ->
  scan_comment n (body ++ nl :: rest) = (raw_of (filter not_cr body), body ++ [nl], rest).
Proof.
  intros Hn. revert body; induction n as [|n IH]; intros body F L; [lia|].
  cbn [Lexer.scan_comment].
  destruct (gscan false (body ++ nl :: rest)) as [[[k sk] a] b] eqn:G.
  pose proof (gscan_progress _ _ _ _ _ _ _ G) as P.
  pose proof (gscan_split _ _ _ _ _ _ _ G) as (E & _ & Sk & _ & K).
  pose proof (gscan_kind _ _ _ _ _ _ _ G) as GK.
  rewrite Sk in E by reflexivity. cbn [app] in E.
  destruct body as [|c body].
  - cbn [app] in *. unfold GoScanner.gscan in G.
    assert (EL : is_letter U (c_rune nl) = false) by (rewrite Hn; reflexivity).
    rewrite EL, Hn in G. cbn in G. inv G. reflexivity.
  - assert (NE : k <> GEOF).
    { intros ->. destruct K as [-> ->]. discriminate E. }
    specialize (P NE).
    assert (NS : k <> GString).
    { intros ->. destruct a as [|c' a]; [congruence|]. cbn in E. inv E. inv F. tauto. }
    assert (NL : Forall (fun c => c_rune c <> 10) a).
    { destruct k as [| | | | |r]; try congruence.
      4:{ destruct K as (c' & -> & R). cbn in E. inv E. inv F. constructor; [tauto|constructor]. }
      all: eapply Forall_impl; [|eapply gscan_vis; [exact G|discriminate|discriminate]];
        unfold vis; intros; lia. }
    assert (Pre : exists body2, c :: body = a ++ body2 /\ b = body2 ++ nl :: rest).
    { clear -E NL Hn. revert E. generalize (c :: body) as l. intros l. revert l.
      induction a as [|x a IHa]; intros l E; cbn in *.
      - exists l. auto.
      - inv NL. destruct l as [|y l]; cbn in E; inv E; [tauto|].
        destruct (IHa H2 l H3) as (b2 & -> & ->). exists b2. auto. }
    destruct Pre as (body2 & Eb & ->). rewrite Eb in F, L |- *.
    apply Forall_app in F as [_ F2].
    assert (L2 : (List.length (body2 ++ nl :: rest) < n)%nat).
    { rewrite <- app_assoc, app_length in L. destruct a; [congruence|cbn in L; lia]. }
    rewrite (IH body2 F2 L2), filter_app, raw_of_app.
    destruct k as [| | | | |r]; try congruence.
    4:{ destruct K as (c' & -> & R). inv NL.
        rewrite (proj2 (Z.eqb_neq _ _) H1). cbn [filter]. unfold not_cr.
        destruct (c_rune c' =? 13); cbn [negb raw_of]; rewrite ?sapp_nil_r; reflexivity. }
    all: rewrite (vis_not_cr a) by (eapply gscan_vis; [exact G|discriminate|discriminate]);
      now rewrite <- app_assoc.
Qed.

(** *** Tokens of the LaTeX lexer *)

Notation tail_ok := (tail_ok U).

Definition set_peek (pk : Z) (x : lexeme) : lexeme := mk_lx (x_tok x) (x_skip x) (x_raw x) pk.

Lemma peek_app_ne b t : b <> [] -> peek (b ++ t) = peek b.
Proof. destruct b; [congruence|reflexivity]. Qed.

(** A number token is not a lone point. *)
Lemma gscan_dot ws l k sk c b :
  gscan ws l = (k, sk, [c], b) -> k = GInt \/ k = GFloat -> c_rune c = 46 -> False.
Proof.
  unfold GoScanner.gscan. intros G K R.
  destruct (if ws then span is_ws l else ([], l)) as [sk0 l0].
  destruct l0 as [|z l0]; [inv G; intuition discriminate|].
  destruct (is_letter U (c_rune z)).
  { destruct (span (is_letter U) l0). inv G. intuition discriminate. }
  destruct (is_decimal (c_rune z)) eqn:Q2.
  { destruct (scan_number (z :: l0)) as [[kk aa] bb] eqn:S. inv G.
    apply scan_number_split in S as (E & _ & _). cbn in E. inv E. rewrite R in Q2. discriminate. }
  destruct (c_rune z =? 34).
  { destruct (scan_string false l0). inv G. intuition discriminate. }
  destruct (c_rune z =? 46); [|inv G; intuition discriminate].
  destruct l0 as [|y l0]; [inv G; intuition discriminate|].
  destruct (is_decimal (c_rune y)) eqn:D; [|inv G; intuition discriminate].
  destruct (scan_frac false (y :: l0)) as [a' b'] eqn:S. inv G.
  unfold scan_frac in S. cbn [span] in S. unfold is_dig in S. rewrite D in S. cbn [orb] in S.
  destruct (span _ l0) as [ds l1]. destruct (scan_exponent l1) as [[? ?] ?]. inv S.
Qed.

Lemma lex1_tail o l x s' t :
  Forall wf_chr l ->
  lex1 (mk_ls o l) = LexOk x s' -> xk x <> KEOF ->
  (l_rest s' = [] -> match t with [] => True | c :: _ => tail_ok x (c_rune c) = true end) ->
  lex1 (mk_ls o (l ++ t)) =
  LexOk (set_peek (peek (l_rest s' ++ t)) x) (mk_ls (l_off s') (l_rest s' ++ t)).
Proof.
  intros W H NE T. unfold Lexer.lex1 in *. cbn [l_rest l_off] in *.
  destruct (gscan true l) as [[[k sk] a] b] eqn:G.
  pose proof (gscan_kind _ _ _ _ _ _ _ G) as GK.
  pose proof (gscan_split _ _ _ _ _ _ _ G) as (E & _ & _ & Wt & K2).
  assert (Wa : Forall wf_chr a).
  { rewrite E in W. apply Forall_app in W as [_ W]. now apply Forall_app in W as [W _]. }
  destruct k as [| | | | |r].
  - inv H. cbn in NE. congruence.
  - inv H. cbn [l_rest] in T. rewrite (gscan_tail _ _ _ _ _ _ t G); [reflexivity|discriminate|].
    intros Hb. specialize (T Hb). destruct t; [exact I|]. exact T.
  - inv H. cbn [l_rest] in T. rewrite (gscan_tail _ _ _ _ _ _ t G); [reflexivity|discriminate|].
    intros Hb. specialize (T Hb). destruct t; [exact I|]. exact T.
  - inv H. cbn [l_rest] in T. rewrite (gscan_tail _ _ _ _ _ _ t G); [reflexivity|discriminate|].
    intros Hb. specialize (T Hb). destruct t; [exact I|]. exact T.
  - inv H. cbn [l_rest] in T. rewrite (gscan_tail _ _ _ _ _ _ t G); [reflexivity|discriminate|].
    intros Hb. specialize (T Hb). destruct t; [exact I|]. discriminate T.
  - destruct K2 as (c & -> & Rc).
    assert (G' : (b = [] -> match t with [] => True | d :: _ => (r =? 46) && is_decimal (c_rune d) = false end) ->
       gscan true (l ++ t) = (GRune r, sk, [c], b ++ t)).
    { intros Q. apply gscan_tail; [assumption|discriminate|]. intros Hb. specialize (Q Hb).
      destruct t; [exact I|]. cbn. now rewrite Q. }
    destruct (Z.eqb_spec r 92) as [R92|N92].
    { rewrite G' by (intros _; destruct t; [exact I|]; rewrite R92; reflexivity).
      rewrite R92. cbn [Z.eqb Pos.eqb].
      destruct (gscan true b) as [[[k2 sk2] a2] b2] eqn:G2.
      pose proof (gscan_kind _ _ _ _ _ _ _ G2) as GK2.
      pose proof (gscan_split _ _ _ _ _ _ _ G2) as (E2 & Fs & _ & Wt2 & K3).
      destruct (Z.eqb_spec (peek b) 32) as [P32|NP].
      - injection H as <- <-. assert (Nb : b <> []) by (intros ->; discriminate P32).
        rewrite (peek_app_ne b t Nb), P32. cbn [Z.eqb Pos.eqb].
        rewrite (gscan_tail _ _ _ _ _ _ t G2); [reflexivity| |].
        + intros ->. destruct K3 as [-> ->]. rewrite app_nil_r in E2.
          destruct b as [|d b']; [congruence|]. cbn in P32. rewrite <- E2 in Fs. inv Fs. rewrite P32 in H1. discriminate.
        + intros Hb. destruct t as [|d t]; [exact I|]. cbn.
          (* the blank: a2 = [' '] *)
          destruct b as [|e b']; [congruence|]. cbn in P32.
          unfold GoScanner.gscan in G2. cbn [span] in G2. rewrite P32 in G2. cbn in G2.
          rewrite P32 in G2. cbn in G2. inv G2. reflexivity.
      - injection H as <- <-. cbn [l_rest] in T. unfold xk in NE, T. cbn in NE.
        assert (Np : (peek (b ++ t) =? 32) = false).
        { destruct b as [|d b']; [|cbn in NP |- *; now apply Z.eqb_neq].
          cbn in G2. inv G2. cbn [l_rest] in T. specialize (T eq_refl).
          destruct t as [|d t]; [reflexivity|]. cbn in T. discriminate T. }
        rewrite Np.
        assert (NE2 : k2 = GEOF -> t = []).
        { intros ->. destruct K3 as [-> ->]. specialize (T eq_refl). destruct t as [|d t]; [reflexivity|].
          unfold tail_ok, xk in T. cbn in T. rewrite app_nil_r in T.
          rewrite (span_all is_ws sk2 sk2 []) in T; [discriminate T|now rewrite app_nil_r|assumption|exact I]. }
        destruct (match k2 with GEOF => true | _ => false end) eqn:IsE.
        { destruct k2; try discriminate. rewrite NE2 by reflexivity. rewrite !app_nil_r, G2. reflexivity. }
        rewrite (gscan_tail _ _ _ _ _ _ t G2); [reflexivity|intros ->; discriminate|].
        intros Hb. specialize (T Hb). destruct t as [|d t]; [exact I|]. cbn [nostick_tail].
        unfold tail_ok, xk in T. cbn [x_tok t_kind x_raw tl] in T.
        pose proof (gscan_progress _ _ _ _ _ _ _ G2 ltac:(intros ->; discriminate)) as Na2.
        rewrite (span_all is_ws (sk2 ++ a2) sk2 a2) in T; auto.
        2:{ specialize (Wt2 eq_refl). rewrite Hb, app_nil_r in Wt2. exact Wt2. }
        cbn [snd] in T. destruct a2 as [|c0 a2]; [congruence|].
        destruct (is_letter U (c_rune c0)) eqn:L0.
        + destruct k2 as [| | | | |r2]; try discriminate; cbn.
          * exact T.
          * exfalso. unfold is_letter in L0. destruct GK2 as [GK2|GK2].
            -- unfold is_decimal, in_range in GK2. replace (c_rune c0 <? 128) with true in L0 by lia.
               unfold is_ascii_letter, in_range in L0. lia.
            -- rewrite GK2 in L0. discriminate.
          * exfalso. unfold is_letter in L0. destruct GK2 as [GK2|GK2].
            -- unfold is_decimal, in_range in GK2. replace (c_rune c0 <? 128) with true in L0 by lia.
               unfold is_ascii_letter, in_range in L0. lia.
            -- rewrite GK2 in L0. discriminate.
          * rewrite GK2 in L0. discriminate.
          * destruct K3 as (c' & Ec & Rc'). inv Ec. destruct GK2; congruence.
        + apply andb_true_iff in T as [T T3]. apply andb_true_iff in T as [T1 T2].
          apply negb_true_iff in T1, T2.
          destruct k2 as [| | | | |r2]; try discriminate; cbn.
                    * destruct GK2 as [GK2|GK2]; [congruence|]. rewrite GK2 in T3. cbn in T3.
            destruct a2 as [|c1 a2]; [|discriminate T3]. exfalso. now apply (gscan_dot _ _ _ _ _ _ G2); auto.
          * destruct GK2 as [GK2|GK2]; [congruence|]. rewrite GK2 in T3. cbn in T3.
            destruct a2 as [|c1 a2]; [|discriminate T3]. exfalso. now apply (gscan_dot _ _ _ _ _ _ G2); auto.
          * lia.
          * destruct K3 as (c' & Ec & Rc'). inv Ec. destruct (c_rune c' =? 46); [|reflexivity]. exact T3. }
    destruct (Z.eqb_spec r 32) as [R32|N32].
    { injection H as <- <-. rewrite G' by (intros _; destruct t; [exact I|]; rewrite R32; reflexivity).
      rewrite R32; reflexivity. }
    destruct (Z.eqb_spec r 37) as [R37|N37].
    { rewrite G' by (intros _; destruct t; [exact I|]; rewrite R37; reflexivity). rewrite (proj2 (Z.eqb_neq r 92)), (proj2 (Z.eqb_neq r 32)), (proj2 (Z.eqb_eq r 37)) by assumption.
      destruct (scan_comment (S (List.length b)) b) as [[tx a2] b2] eqn:Sc. injection H as <- <-. cbn [l_rest] in T.
      destruct b2 as [|c2 b2].
      - specialize (T eq_refl). destruct t as [|d t]; [rewrite !app_nil_r, Sc; reflexivity|].
        pose proof (scan_comment_split _ _ _ _ _ _ Sc) as Eb. rewrite app_nil_r in Eb. subst b.
        unfold tail_ok, xk in T. cbn [x_tok t_kind x_raw] in T.
        cbn [rev] in T.
        destruct (rev a2) as [|d2 body] eqn:Ra.
        { cbn in T. rewrite Rc, R37 in T. discriminate T. }
        cbn [app] in T. apply andb_true_iff in T as [T1 T2]. apply Z.eqb_eq in T1.
        rewrite forallb_app in T2. apply andb_true_iff in T2 as [T2 _].
        assert (Ea : a2 = rev body ++ [d2]).
        { rewrite <- (rev_involutive a2), Ra. reflexivity. }
        assert (F : Forall (fun c => c_rune c <> 10 /\ c_rune c <> 34) (rev body)).
        { apply Forall_rev. apply Forall_forall. intros y Hy. rewrite forallb_forall in T2.
          apply T2 in Hy. lia. }
        rewrite Ea in *.
        rewrite scan_comment_line in Sc by (auto; lia). inv Sc.
        rewrite <- app_assoc. cbn [app].
        rewrite scan_comment_line by (auto; lia). reflexivity.
      - rewrite (scan_comment_tail (S (List.length b)) (S (List.length (b ++ t))) _ _ _ _ t Sc);
          [reflexivity|discriminate|lia|lia]. }
    destruct (is_symbol_rune r) eqn:Sy.
    { inv H. rewrite G'.
      - destruct (Z.eqb_spec (c_rune c) 92); [congruence|]. destruct (Z.eqb_spec (c_rune c) 32); [congruence|].
        destruct (Z.eqb_spec (c_rune c) 37); [congruence|]. rewrite Sy. reflexivity.
      - intros Hb. cbn [l_rest] in T. specialize (T Hb). destruct t as [|d t]; [exact I|].
        unfold tail_ok, xk, xt in T. cbn [x_tok t_kind t_text] in T.
        destruct (Z.eqb_spec (c_rune c) 46) as [R46|N46]; [|reflexivity]. cbn.
        inv Wa. destruct H1 as (_ & _ & H1 & _). cbn [raw_of] in T. rewrite H1 in T by lia. rewrite R46 in T.
        cbn in T. now apply negb_true_iff in T. }
    destruct (bracket_kind r) as [kd|] eqn:Br; [|discriminate].
    inv H. rewrite G'.
    + destruct (Z.eqb_spec (c_rune c) 92); [congruence|]. destruct (Z.eqb_spec (c_rune c) 32); [congruence|].
      destruct (Z.eqb_spec (c_rune c) 37); [congruence|]. rewrite Sy, Br. reflexivity.
    + intros _. destruct t; [exact I|]. apply bracket_kind_inv in Br.
      replace (c_rune c =? 46) with false by lia. reflexivity.
Qed.

End WithLetters.
