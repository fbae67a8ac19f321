(** Facts about token streams used by the property files. *)
From Coq Require Import ZArith String Ascii List Bool Lia ZifyBool.
From Verif Require Import Utf8 GoScanner Token Lexer Ast MacroTable SymTable Parser
  Utf8Facts LexFacts LexText Grammar Stream ParserFacts GrammarFacts TreeSpec TreeFacts LexTail.
Import ListNotations.
Local Open Scope string_scope.
Local Open Scope list_scope.
Local Open Scope Z_scope.

Section WithLetters.
Variable U : Z -> bool.

Lemma Lexes_tiles s xs s' :
  wf_ls s -> Lexes U s xs s' ->
  Tiles (l_off s) (raw_of (l_rest s)) xs (l_off s') (raw_of (l_rest s')).
Proof.
  intros W L. induction L as [s|s x s1 xs s2 L N _ IH]; [constructor|].
  pose proof (lex1_split _ _ _ _ L) as (R & F & T & O & _ & _ & Nw).
  pose proof (lex1_wf _ _ _ _ W L) as W1. specialize (IH W1).
  rewrite R, !raw_of_app.
  assert (Wx : Forall wf_chr (x_skip x) /\ Forall wf_chr (x_raw x)).
  { unfold wf_ls in W. rewrite R in W. apply Forall_app in W as [A W]. now apply Forall_app in W as [B _]. }
  apply T_cons; auto.
  - apply ws_raw; tauto.
  - specialize (Nw N). destruct (x_raw x) as [|c l]; [contradiction|].
    destruct Wx as [_ Wx]. inv Wx. destruct H1 as (H1 & _). cbn. destruct (c_raw c); cbn; congruence.
  - rewrite O in IH. unfold xp in *. rewrite T in IH. exact IH.
Qed.

(** Lexing never gets stuck: it reaches the end of the input or an unhandled
    character. *)
Lemma lex_total s :
  (exists xs s', Reads U s xs true s') \/
  (exists xs s' r, Lexes U s xs s' /\ lex1 U s' = LexPanic r).
Proof.
  remember (List.length (l_rest s)) as n eqn:E. revert s E.
  induction n as [n IH] using lt_wf_ind. intros s E.
  destruct (lex1 U s) as [x s1|r] eqn:L.
  - destruct (kind_beq (xk x) KEOF) eqn:K.
    + apply kind_beq_eq in K. left. exists [], s1, s. split; [constructor|]. exists x. auto.
    + apply kind_beq_neq in K.
      pose proof (lex1_progress _ _ _ _ L K) as P.
      destruct (IH (List.length (l_rest s1)) ltac:(lia) s1 eq_refl)
        as [(xs & s' & t & L1 & F)|(xs & s' & r & L1 & F)].
      * left. exists (x :: xs), s', t. split; [|exact F]. econstructor; eauto.
      * right. exists (x :: xs), s', r. split; [|exact F]. econstructor; eauto.
  - right. exists [], s, r. split; [constructor|assumption].
Qed.

(** Lexes stops nowhere else: the tokens read so far are a prefix of the stream. *)
Lemma Lexes_prefix s xs s1 ys s2 o s3 :
  Lexes U s xs s1 -> Lexes U s ys s2 ->
  (EofStep U s2 s3 \/ exists r, lex1 U s2 = LexPanic r) -> o = true ->
  exists zs, ys = xs ++ zs /\ Lexes U s1 zs s2.
Proof.
  intros L. revert ys s2 s3. induction L as [s|s x s1 xs s2 L N L1 IH]; intros ys t3 s3 L2 F O.
  - exists ys. auto.
  - inv L2.
    + exfalso. destruct F as [(y & F & K)|(r & F)]; congruence.
    + rewrite L in H. inv H. destruct (IH _ _ _ H1 F eq_refl) as (zs & -> & Z). exists zs. auto.
Qed.

(** Running the lexer on a concrete input (for examples). *)
Lemma lex_all_lexes n s xs e :
  lex_all_fuel U n s = (xs, Some e) -> exists s', Lexes U s xs s' /\ lex1 U s' = e /\
     match e with LexOk x _ => xk x = KEOF | LexPanic _ => True end.
Proof.
  revert s xs; induction n as [|n IH]; intros s xs; cbn; [discriminate|].
  destruct (lex1 U s) as [x s1|r] eqn:L.
  - destruct (kind_beq (t_kind (x_tok x)) KEOF) eqn:K.
    + intros [= <- <-]. exists s. split; [constructor|]. split; [assumption|]. now apply kind_beq_eq in K.
    + destruct (lex_all_fuel U n s1) as [ys f] eqn:R. intros [= <- ->].
      destruct (IH _ _ R) as (s' & L1 & E & Q). exists s'. split; [|auto].
      econstructor; eauto. now apply kind_beq_neq in K.
  - intros [= <- <-]. exists s. split; [constructor|]. auto.
Qed.

Lemma lex_all_tokens x xs y s : lex_all U x = (xs, Some (LexOk y s)) -> Tokens U x xs.
Proof.
  intros H. apply lex_all_lexes in H as (s' & L & E & K). exists s, s'. split; [assumption|]. exists y. auto.
Qed.

End WithLetters.

Lemma accept2_range b0 b1 : accept2 b0 b1 = true -> 128 <= b1 <= 191 /\ (b0 = 240 -> 144 <= b1).
Proof.
  unfold accept2, in_range.
  destruct (Z.eqb_spec b0 224), (Z.eqb_spec b0 237), (Z.eqb_spec b0 240), (Z.eqb_spec b0 244); lia.
Qed.

Lemma decode_bom s : fst (decode_rune s) = BOM -> stake (snd (decode_rune s)) s = bom_bytes.
Proof.
  assert (Z2A : forall a z, byte a = z -> a = zascii z) by (intros a z <-; now rewrite zascii_byte).
  unfold BOM. destruct s as [|a0 s1]; [discriminate|]. cbn [decode_rune].
  pose proof (byte_range a0) as R0.
  destruct (byte a0 <? 128) eqn:E0; [cbn; lia|].
  destruct (in_range 194 223 (byte a0)) eqn:E2.
  { destruct s1 as [|a1 s2]; [discriminate|]. pose proof (byte_range a1).
    destruct (accept2 _ _) eqn:A; [|discriminate]. cbn [fst]. intros; exfalso. apply accept2_range in A; unfold in_range in *; lia. }
  destruct (in_range 224 239 (byte a0)) eqn:E3.
  { destruct s1 as [|a1 [|a2 s3]]; try discriminate.
    pose proof (byte_range a1). pose proof (byte_range a2).
    destruct (accept2 _ _ && _) eqn:A; [|discriminate]. cbn [fst snd].
    intros E. assert (B0 : byte a0 = 239 /\ byte a1 = 187 /\ byte a2 = 191).
    { apply andb_true_iff in A as [A1 A2]. apply accept2_range in A1. unfold cont, in_range in *. lia. }
    destruct B0 as (B0 & B1 & B2). apply Z2A in B0, B1, B2. subst. destruct s3; reflexivity. }
  destruct (in_range 240 244 (byte a0)) eqn:E4; [|discriminate].
  destruct s1 as [|a1 [|a2 [|a3 s4]]]; try discriminate.
  pose proof (byte_range a1). pose proof (byte_range a2). pose proof (byte_range a3).
  destruct (accept2 _ _ && _ && _) eqn:A; [|discriminate]. cbn [fst snd].
  intros; exfalso. apply andb_true_iff in A as [A A3]. apply andb_true_iff in A as [A1 A2]. apply accept2_range in A1. unfold cont, in_range in *. lia.
Qed.

(** The initial state in terms of the source. *)
Lemma init_lex_source x :
  exists bom, x = append bom (raw_of (l_rest (init_lex x))) /\ l_off (init_lex x) = zlen bom /\
    (bom = "" \/ bom = bom_bytes).
Proof.
  unfold init_lex. pose proof (chars_raw x) as H. destruct (chars x) as [|c l] eqn:E.
  - exists "". rewrite <- H. auto.
  - destruct (Z.eqb_spec (c_rune c) BOM) as [B|B]; cbn [l_rest l_off].
    + exists (c_raw c). cbn in H. split; [auto|]. split; [reflexivity|]. right.
      destruct x as [|a x]; [discriminate E|]. rewrite chars_step in E by discriminate. injection E as E _.
      subst c. exact (decode_bom (String a x) B).
    + exists "". auto.
Qed.
