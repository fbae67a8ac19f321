(** Facts about the scanner and the lexer. *)
From Coq Require Import ZArith String Ascii List Bool Lia ZifyBool.
From Verif Require Import Utf8 GoScanner Token Lexer Utf8Facts.
Import ListNotations.
Local Open Scope Z_scope.

Ltac inv H := inversion H; subst; clear H.

Section WithLetters.
Variable U : Z -> bool.
Notation gscan := (gscan U).
Notation lex1 := (lex1 U).
Notation scan_comment := (scan_comment U).
Notation is_letter := (is_letter U).

Lemma span_spec p l a b :
  span p l = (a, b) ->
  l = a ++ b /\ Forall (fun c => p (c_rune c) = true) a /\
  match b with [] => True | c :: _ => p (c_rune c) = false end.
Proof.
  revert a b; induction l as [|c l IH]; cbn [span]; intros a b H.
  - inv H. repeat split; constructor.
  - destruct (p (c_rune c)) eqn:E.
    + destruct (span p l) as [a' b'] eqn:S. inv H.
      destruct (IH _ _ eq_refl) as (-> & Fa & Fb). repeat split; auto.
    + inv H. repeat split; auto; constructor.
Qed.

Lemma span_all p l a b :
  l = a ++ b -> Forall (fun c => p (c_rune c) = true) a ->
  match b with [] => True | c :: _ => p (c_rune c) = false end ->
  span p l = (a, b).
Proof.
  intros ->; induction a as [|c a IH]; cbn [app span]; intros Fa Hb.
  - destruct b as [|c b]; cbn [span]; [reflexivity|]. now rewrite Hb.
  - inv Fa. rewrite H1, IH; auto.
Qed.

Lemma scan_exponent_split l f a b :
  scan_exponent l = (f, a, b) -> l = a ++ b.
Proof.
  unfold scan_exponent. destruct l as [|c l1]; [now intros [= <- <- <-]|].
  destruct (_ || _); [|now intros [= <- <- <-]].
  destruct l1 as [|d l2].
  - cbn. now intros [= <- <- <-].
  - destruct ((c_rune d =? 43) || (c_rune d =? 45)).
    + destruct (span (is_dig false) l2) as [ds l3] eqn:S.
      intros [= <- <- <-]. apply span_spec in S as (-> & _). reflexivity.
    + destruct (span (is_dig false) (d :: l2)) as [ds l3] eqn:S.
      intros [= <- <- <-]. apply span_spec in S as (E & _). rewrite E. reflexivity.
Qed.

Lemma scan_frac_split hex l a b : scan_frac hex l = (a, b) -> l = a ++ b.
Proof.
  unfold scan_frac. destruct (span (is_dig hex) l) as [ds l1] eqn:S.
  destruct (scan_exponent l1) as [[f e] l2] eqn:X.
  intros [= <- <-]. apply span_spec in S as (-> & _).
  apply scan_exponent_split in X as ->. now rewrite app_assoc.
Qed.

Lemma scan_number_tail (k : gkind) hex l1 pre ds l2 a b :
  span (is_dig hex) l1 = (ds, l2) ->
  match l2 with
  | d :: l3 =>
    if c_rune d =? 46 then
      let (f, l4) := scan_frac hex l3 in (GFloat, pre ++ ds ++ d :: f, l4)
    else
      match scan_exponent l2 with
      | (isf, e, l4) => (if isf then GFloat else GInt, pre ++ ds ++ e, l4)
      end
  | [] => (GInt, pre ++ ds, [])
  end = (k, a, b) ->
  pre ++ l1 = a ++ b /\ (k = GInt \/ k = GFloat) /\ exists a', a = pre ++ ds ++ a'.
Proof.
  intros S. apply span_spec in S as (-> & _).
  destruct l2 as [|d l3].
  - intros [= <- <- <-]. rewrite !app_nil_r. repeat split; auto.
    exists []. now rewrite app_nil_r.
  - destruct (c_rune d =? 46).
    + destruct (scan_frac hex l3) as [f l4] eqn:F. intros [= <- <- <-].
      apply scan_frac_split in F as ->.
      split; [now rewrite <- !app_assoc|]. split; [auto|]. now exists (d :: f).
    + destruct (scan_exponent (d :: l3)) as [[isf e] l4] eqn:F. intros [= <- <- <-].
      apply scan_exponent_split in F as ->.
      split; [now rewrite <- !app_assoc|]. split; [destruct isf; auto|]. now exists e.
Qed.

Lemma scan_number_split l k a b :
  scan_number l = (k, a, b) ->
  l = a ++ b /\ (k = GInt \/ k = GFloat) /\
  (match l with c :: _ => is_decimal (c_rune c) = true -> a <> [] | [] => True end).
Proof.
  unfold scan_number. destruct l as [|z l1].
  - cbn. intros [= <- <- <-]. auto.
  - destruct (c_rune z =? 48) eqn:Ez.
    + destruct l1 as [|c l2].
      { cbn. intros [= <- <- <-]. repeat split; auto. discriminate. }
      destruct ((c_rune c =? 120) || (c_rune c =? 88)).
      { destruct (span (is_dig true) l2) as [ds l3] eqn:S. intros H.
        apply (scan_number_tail _ _ _ [z; c] _ _ _ _ S) in H as (H & K & a' & ->).
        repeat split; auto. discriminate. }
      destruct ((c_rune c =? 111) || (c_rune c =? 79) || (c_rune c =? 98) || (c_rune c =? 66)).
      { destruct (span (is_dig false) l2) as [ds l3] eqn:S. intros H.
        apply (scan_number_tail _ _ _ [z; c] _ _ _ _ S) in H as (H & K & a' & ->).
        repeat split; auto. discriminate. }
      { destruct (span (is_dig false) (c :: l2)) as [ds l3] eqn:S. intros H.
        apply (scan_number_tail _ _ _ [z] _ _ _ _ S) in H as (H & K & a' & ->).
        repeat split; auto. discriminate. }
    + destruct (span (is_dig false) (z :: l1)) as [ds l3] eqn:S. intros H.
      pose proof S as S0.
      apply (scan_number_tail _ _ _ [] _ _ _ _ S) in H as (H & K & a' & ->).
      repeat split; auto. intros D. cbn [span] in S0.
      unfold is_dig in S0. rewrite D in S0. cbn [orb] in S0.
      destruct (span _ l1) as [x y]. inv S0. discriminate.
Qed.

Lemma scan_string_split esc l a b : scan_string esc l = (a, b) -> l = a ++ b.
Proof.
  revert esc a b; induction l as [|c l IH]; cbn [scan_string]; intros esc a b H.
  - now inv H.
  - destruct (esc && simple_escape (c_rune c)).
    + destruct (scan_string false l) as [a' b'] eqn:E. inv H. cbn. f_equal. eauto.
    + destruct ((c_rune c =? 34) || (c_rune c =? 10)); [now inv H|].
      destruct (scan_string (c_rune c =? 92) l) as [a' b'] eqn:E. inv H. cbn. f_equal. eauto.
Qed.

(** Scan splits the input into skipped whitespace, token and rest; it consumes
    nothing only at the end of the input. *)
Lemma gscan_split ws l k sk a b :
  gscan ws l = (k, sk, a, b) ->
  l = sk ++ a ++ b /\
  Forall (fun c => is_ws (c_rune c) = true) sk /\
  (ws = false -> sk = []) /\
  (ws = true -> match a ++ b with [] => True | c :: _ => is_ws (c_rune c) = false end) /\
  match k with
  | GEOF => a = [] /\ b = []
  | GRune r => exists c, a = [c] /\ c_rune c = r
  | _ => a <> []
  end.
Proof.
  unfold GoScanner.gscan.
  assert (Hsk : exists sk0 l0, (if ws then span is_ws l else ([], l)) = (sk0, l0) /\
     l = sk0 ++ l0 /\ Forall (fun c => is_ws (c_rune c) = true) sk0 /\
     (ws = false -> sk0 = []) /\
     (ws = true -> match l0 with [] => True | c :: _ => is_ws (c_rune c) = false end)).
  { destruct ws.
    - destruct (span is_ws l) as [sk0 l0] eqn:S. exists sk0, l0.
      apply span_spec in S as (-> & F & G). repeat split; auto. discriminate.
    - exists [], l. repeat split; auto; try constructor. discriminate. }
  destruct Hsk as (sk0 & l0 & -> & -> & F & W1 & W2).
  destruct l0 as [|c l'].
  { intros [= <- <- <- <-]. repeat split; auto. }
  intros H.
  assert (Main : sk = sk0 /\ c :: l' = a ++ b /\
    match k with
    | GEOF => a = [] /\ b = []
    | GRune r => exists c, a = [c] /\ c_rune c = r
    | _ => a <> []
    end).
  { destruct (is_letter (c_rune c)).
    { destruct (span is_letter l') as [a' b'] eqn:S. inv H.
      apply span_spec in S as (-> & _). repeat split; auto. discriminate. }
    destruct (is_decimal (c_rune c)) eqn:D.
    { destruct (scan_number (c :: l')) as [[k' a'] b'] eqn:S. inv H.
      apply scan_number_split in S as (E & K & N). repeat split; auto.
      destruct K as [-> | ->]; auto. }
    destruct (c_rune c =? 34).
    { destruct (scan_string false l') as [a' b'] eqn:S. inv H.
      apply scan_string_split in S as ->. repeat split; auto. discriminate. }
    destruct (c_rune c =? 46).
    { destruct l' as [|d l2].
      - inv H. repeat split; eauto.
      - destruct (is_decimal (c_rune d)).
        + destruct (scan_frac false (d :: l2)) as [a' b'] eqn:S. inv H.
          apply scan_frac_split in S as ->. repeat split; auto. discriminate.
        + inv H. repeat split; eauto. }
    inv H. repeat split; eauto. }
  destruct Main as (-> & E & K). rewrite <- E. repeat split; auto.
Qed.

Lemma gscan_progress ws l k sk a b :
  gscan ws l = (k, sk, a, b) -> k <> GEOF -> a <> [].
Proof.
  intros H K. apply gscan_split in H as (_ & _ & _ & _ & H).
  destruct k; auto. destruct H as (c & -> & _). discriminate.
Qed.

Lemma scan_comment_split n l t a b :
  scan_comment n l = (t, a, b) -> l = a ++ b.
Proof.
  revert l t a b; induction n as [|n IH]; cbn [Lexer.scan_comment]; intros l t a b H.
  - now inv H.
  - destruct (gscan false l) as [[[k sk] a1] b1] eqn:G.
    apply gscan_split in G as (-> & _ & S & _ & _). rewrite S in * by reflexivity. cbn [app].
    destruct k; try now inv H.
    all: try (destruct (scan_comment n b1) as [[t' a'] b'] eqn:E; inv H;
              apply IH in E as ->; now rewrite app_assoc).
    destruct (r =? 10); [now inv H|].
    destruct (scan_comment n b1) as [[t' a'] b'] eqn:E; inv H;
      apply IH in E as ->; now rewrite app_assoc.
Qed.

Lemma clen_app a b : clen (a ++ b) = clen a + clen b.
Proof. unfold clen. now rewrite raw_of_app, zlen_app. Qed.

Lemma clen_nonneg a : 0 <= clen a.
Proof. apply zlen_nonneg. Qed.

(** One call of Next: what is consumed and where. *)
Lemma lex1_split s x s' :
  lex1 s = LexOk x s' ->
  l_rest s = x_skip x ++ x_raw x ++ l_rest s' /\
  Forall (fun c => is_ws (c_rune c) = true) (x_skip x) /\
  t_pos (x_tok x) = l_off s + clen (x_skip x) /\
  l_off s' = t_pos (x_tok x) + clen (x_raw x) /\
  x_peek x = peek (l_rest s') /\
  (t_kind (x_tok x) = KEOF -> x_raw x = [] /\ l_rest s' = [] /\ t_text (x_tok x) = EmptyString) /\
  (t_kind (x_tok x) <> KEOF ->
     match x_raw x with [] => False | c :: _ => is_ws (c_rune c) = false end).
Proof.
  unfold Lexer.lex1.
  destruct (gscan true (l_rest s)) as [[[k sk] a] b] eqn:G.
  pose proof (gscan_progress _ _ _ _ _ _ G) as P.
  apply gscan_split in G as (-> & F & _ & W & K).
  specialize (W eq_refl).
  assert (W' : a <> [] -> match a with [] => False | c :: _ => is_ws (c_rune c) = false end)
    by (destruct a; [congruence|intros _; exact W]).
  destruct k; cbn [x_tok x_skip x_raw x_peek t_kind t_pos t_text].
  - intros [= <- <-]. cbn. destruct K as [-> ->]. repeat split; auto; try congruence.
  - intros [= <- <-]. cbn. specialize (W' (P ltac:(discriminate))). repeat split; auto; discriminate.
  - intros [= <- <-]. cbn. specialize (W' (P ltac:(discriminate))). repeat split; auto; discriminate.
  - intros [= <- <-]. cbn. specialize (W' (P ltac:(discriminate))). repeat split; auto; discriminate.
  - intros [= <- <-]. cbn. specialize (W' (P ltac:(discriminate))). repeat split; auto; discriminate.
  - destruct K as (c & -> & <-).
    assert (Wc : is_ws (c_rune c) = false) by (apply W'; discriminate).
    destruct (c_rune c =? 92).
    { destruct (gscan true b) as [[[k2 sk2] a2] b2] eqn:G2.
      apply gscan_split in G2 as (-> & _ & _ & _ & _).
      destruct (peek _ =? 32); intros [= <- <-]; cbn;
        rewrite <- ?app_assoc; repeat split; auto; discriminate. }
    destruct (c_rune c =? 32).
    { intros [= <- <-]. cbn. repeat split; auto; discriminate. }
    destruct (c_rune c =? 37).
    { destruct (scan_comment (S (List.length b)) b) as [[t a2] b2] eqn:G2.
      apply scan_comment_split in G2 as ->.
      intros [= <- <-]. cbn. repeat split; auto; discriminate. }
    destruct (is_symbol_rune (c_rune c)).
    { intros [= <- <-]. cbn. repeat split; auto; discriminate. }
    unfold bracket_kind.
    repeat match goal with
    | |- context [if ?x then _ else _] => destruct x
    end; intros [=]; subst; cbn; repeat split; auto; discriminate.
Qed.

(** The lexer never stalls: a token other than EOF consumes characters. *)
Lemma lex1_progress s x s' :
  lex1 s = LexOk x s' -> t_kind (x_tok x) <> KEOF ->
  (List.length (l_rest s') < List.length (l_rest s))%nat.
Proof.
  intros H K. apply lex1_split in H as (E & _ & _ & _ & _ & _ & N).
  specialize (N K). rewrite E, !app_length. destruct (x_raw x); [easy|cbn; lia].
Qed.

Lemma lex1_le s x s' :
  lex1 s = LexOk x s' -> (List.length (l_rest s') <= List.length (l_rest s))%nat.
Proof.
  intros H. apply lex1_split in H as (E & _). rewrite E, !app_length. lia.
Qed.

Lemma lex1_eof_again s x s' :
  lex1 s = LexOk x s' -> t_kind (x_tok x) = KEOF ->
  lex1 s' = LexOk (mk_lx (mk_tok KEOF (l_off s') "") [] [] (-1)) s'.
Proof.
  intros H K. apply lex1_split in H as (_ & _ & _ & _ & _ & N & _).
  destruct (N K) as (_ & R & _).
  destruct s' as [o l]; cbn in R; subst l. unfold Lexer.lex1; cbn.
  f_equal; f_equal; f_equal; unfold clen; cbn; unfold zlen; cbn; lia.
Qed.

End WithLetters.
