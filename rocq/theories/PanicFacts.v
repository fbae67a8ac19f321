(** Every panic of ParseExpr has its cause in the token stream. *)
From Coq Require Import ZArith String Ascii List Bool Lia ZifyBool.
From Verif Require Import Utf8 GoScanner Token Lexer Ast MacroTable SymTable Parser
  Utf8Facts LexFacts LexText Grammar Stream ParserFacts GrammarFacts PanicSpec.
Import ListNotations.
Local Open Scope string_scope.
Local Open Scope list_scope.
Local Open Scope Z_scope.

(** The cause lies somewhere ahead of [s]; [pre] are tokens just read. *)
Definition blames U (pre : list lexeme) (s : lstate) (q : pcode) : Prop :=
  exists xs s', Lexes U s xs s' /\ culprit U q (pre ++ xs) s'.

Lemma nil_macro_name t : lookup_macro t = Some None -> t = "\genfrac".
Proof.
  unfold lookup_macro.
  assert (A : forall l, forallb (fun kv : string * option string =>
      match snd kv with None => String.eqb (fst kv) "\genfrac" | Some _ => true end) l = true ->
      assoc t l = Some None -> t = "\genfrac").
  { induction l as [|[k v] l IH]; cbn; [discriminate|]. intros H.
    apply andb_true_iff in H as [H1 H2].
    destruct (String.eqb_spec t k); [|auto]. intros E; inv E. now apply String.eqb_eq. }
  destruct (assoc t builtin_macros) as [v|] eqn:E.
  - intros [= ->]. apply (A builtin_macros); [now vm_compute|exact E].
  - destruct t as [|a t']; [discriminate|].
    destruct a as [[] [] [] [] [] [] [] []]; try discriminate.
    destruct (assoc t' tex2uni); discriminate.
Qed.

Section WithLetters.
Variable U : Z -> bool.
Notation lex1 := (lex1 U).
Notation snext := (snext U).
Notation pnext := (pnext U).
Notation expect := (expect U).
Notation parse_node := (parse_node U).
Notation parse_loop := (parse_loop U).
Notation parse_script := (parse_script U).
Notation parse_args := (parse_args U).
Notation culprit := (culprit U).
Notation blames := (blames U).
Notation Reads := (Reads U).
Notation Lexes := (Lexes U).
Notation EofStep := (EofStep U).

Lemma lex1_panic s r : lex1 s = LexPanic r -> unhandled U r.
Proof.
  unfold Lexer.lex1. destruct (gscan U true (l_rest s)) as [[[k sk] a] b] eqn:G.
  pose proof (gscan_kind _ _ _ _ _ _ _ G) as K.
  pose proof (gscan_split _ _ _ _ _ _ _ G) as (_ & _ & _ & W & K2).
  destruct k; try discriminate.
  destruct K2 as (c & -> & <-). specialize (W eq_refl). cbn in W.
  destruct (Z.eqb_spec (c_rune c) 92).
  { destruct (peek b =? 32); destruct (gscan U true b) as [[[? ?] ?] ?]; discriminate. }
  destruct (Z.eqb_spec (c_rune c) 32); [discriminate|].
  destruct (Z.eqb_spec (c_rune c) 37).
  { destruct (scan_comment U (S (List.length b)) b) as [[? ?] ?]; discriminate. }
  destruct (is_symbol_rune (c_rune c)) eqn:Sy; [discriminate|].
  destruct (bracket_kind (c_rune c)) eqn:B; [discriminate|].
  intros [= <-]. unfold unhandled. intuition.
Qed.

Lemma culprit_app q xs ys s : culprit q ys s -> culprit q (xs ++ ys) s.
Proof.
  assert (E : forall P : lexeme -> Prop, (exists zs l, ys = zs ++ [l] /\ P l) ->
     exists zs l, xs ++ ys = zs ++ [l] /\ P l).
  { intros P (zs & l & -> & H). exists (xs ++ zs), l. now rewrite app_assoc. }
  destruct q as [r|name| |want got| |text|k]; unfold PanicSpec.culprit.
  - intros H; exact H.
  - intros H. apply (E (fun l => xk l = KMacro /\ xt l = name /\ lookup_macro name = None)) in H. exact H.
  - intros H. apply (E (fun l => xk l = KMacro /\ xt l = "\genfrac")) in H. exact H.
  - intros (W & [H|H]); (split; [exact W|]); [left|right; exact H].
    apply (E (fun l => xk l <> KLbrace /\ xt l = got)) in H. exact H.
  - intros H. apply (E (fun l => xk l = KLbrace)) in H. exact H.
  - intros H. apply (E (fun l => xk l = KOther /\ xt l = text)) in H. exact H.
  - intros [(-> & H)|H]; [left|right; exact H]. split; [reflexivity|]. apply (E (fun l => xk l = KRbrace)) in H. exact H.
Qed.

Lemma blames_pre pre s q : blames [] s q -> blames pre s q.
Proof. intros (xs & s' & L & C). exists xs, s'. split; [assumption|]. now apply culprit_app. Qed.

(** Moving the blame back over tokens already read. *)
Lemma blames_reads s xs o s1 q : Reads s xs o s1 -> blames [] s1 q -> blames [] s q.
Proof.
  intros (t & L & E) (ys & s' & L' & C). destruct o.
  - pose proof (eof_nil_lexes _ _ _ _ _ E L') as [-> ->]. exists xs, t. split; [assumption|].
    cbn in *.
    assert (NE : forall P : lexeme -> Prop, ~ exists zs l, [] = zs ++ [l] /\ P l).
    { intros P (zs & l & H & _). symmetry in H. apply app_eq_nil in H as [_ H]. discriminate H. }
    destruct q; cbn in C |- *.
    + destruct C as (C & _). apply eof_again in E as (x & E & _). congruence.
    + exfalso. eapply NE; exact C.
    + exfalso. eapply NE; exact C.
    + destruct C as (-> & [C|C]); [exfalso; eapply NE; exact C|]. destruct C as (-> & _). eauto.
    + exfalso. eapply NE; exact C.
    + exfalso. eapply NE; exact C.
    + destruct C as [(_ & C)|(-> & _)]; [exfalso; eapply NE; exact C|]. eauto.
  - subst s1. exists (xs ++ ys), s'. split; [eapply Lexes_app; eassumption|].
    cbn in *. now apply culprit_app.
Qed.

Lemma bind_panic {A B} (r : res A) (f : A -> res B) q :
  bind r f = Panic q -> r = Panic q \/ exists a, r = Ok a /\ f a = Panic q.
Proof. destruct r; cbn; try discriminate; eauto. left. congruence. Qed.

Lemma snext_panic p q : snext p = Panic q -> blames [] (p_lex p) q.
Proof.
  unfold Parser.snext. destruct (lex1 (p_lex p)) as [x s|r] eqn:E; [discriminate|].
  intros [= <-]. exists [], (p_lex p). split; [constructor|]. cbn. split; [assumption|].
  eapply lex1_panic; eassumption.
Qed.

Lemma pnext_panic p q : pnext p = Panic q -> blames [] (p_lex p) q.
Proof.
  unfold Parser.pnext. intros H. apply bind_panic in H as [H|([ok p1] & _ & H)].
  - now apply snext_panic.
  - destruct ok; discriminate.
Qed.

Lemma lex1_reads s x s' : lex1 s = LexOk x s' -> xk x <> KEOF -> Reads s [x] false s'.
Proof. intros L K. exists s'. split; [|reflexivity]. econstructor; [eassumption|assumption|constructor]. Qed.

Lemma expect_brace_panic p q : wf_ls (p_lex p) -> expect "{" p = Panic q -> blames [] (p_lex p) q.
Proof.
  intros W. unfold Parser.expect. intros H. apply bind_panic in H as [H|([t p1] & H1 & H)].
  - now apply pnext_panic.
  - destruct (String.eqb_spec (t_text (p_tok p1)) "{") as [|N]; [discriminate|]. injection H as <-.
    unfold Parser.pnext in H1. apply bind_ok in H1 as ([ok p2] & S & H2).
    assert (p2 = p1) by (destruct ok; congruence). subst p2. clear H2.
    apply snext_ok in S as (_ & x & L & T & _ & K).
    destruct ok.
    + assert (NE : xk x <> KEOF) by now apply K.
      exists [x], (p_lex p1). split; [econstructor; [eassumption|assumption|constructor]|].
      cbn. split; [reflexivity|]. left. exists [], x. rewrite T. repeat split.
      intros E. apply N. rewrite T. apply (shape_lbrace U); [eapply lex1_shape; eassumption|exact E].
    + assert (E : xk x = KEOF).
      { destruct (kind_beq (xk x) KEOF) eqn:B; [now apply kind_beq_eq|].
        apply kind_beq_neq in B. apply K in B. discriminate. }
      exists [], (p_lex p). split; [constructor|]. cbn. split; [reflexivity|]. right.
      split; [|exists (p_lex p1), x; auto].
      rewrite T. apply lex1_split in L as (_ & _ & _ & _ & _ & N2 & _). now apply N2.
Qed.

(** After Peek returned '[' or '{', the next token is that bracket. *)
Lemma lex1_peek s r k : wf_ls s -> peek (l_rest s) = r -> r < 128 -> 0 <= r ->
  bracket_kind r = Some k ->
  exists x s', lex1 s = LexOk x s' /\ xk x = k /\ xt x = String (zascii r) "".
Proof.
  intros W P L NN B. unfold wf_ls in W.
  destruct s as [o l]. cbn in P, W. destruct l as [|c l]; [cbn in P; lia|]. cbn in P. inv W.
  assert (F : is_ws (c_rune c) = false /\ is_letter U (c_rune c) = false /\ is_decimal (c_rune c) = false
    /\ (c_rune c =? 34) = false /\ (c_rune c =? 46) = false /\ (c_rune c =? 92) = false
    /\ (c_rune c =? 32) = false /\ (c_rune c =? 37) = false /\ is_symbol_rune (c_rune c) = false).
  { apply bracket_kind_inv in B. unfold is_letter. rewrite (proj2 (Z.ltb_lt _ _) L).
    destruct B as [[-> _]|[[-> _]|[[-> _]|[[-> _]|[[-> _]|[-> _]]]]]]; repeat split; reflexivity. }
  destruct F as (F1 & F2 & F3 & F4 & F5 & F6 & F7 & F8 & F9).
  unfold Lexer.lex1, GoScanner.gscan. cbn [l_rest span].
  rewrite F1, F2, F3, F4, F5. cbn -[is_symbol_rune bracket_kind raw_of clen]. rewrite F6, F7, F8, F9, B.
  eexists _, _. split; [reflexivity|]. split; [reflexivity|]. unfold xt. cbn.
  destruct H1 as (_ & _ & H1 & _). rewrite H1 by lia. apply sapp_nil_r.
Qed.

Lemma expect_brack_ok p q : wf_ls (p_lex p) -> p_peek p = 91 -> expect "[" p <> Panic q.
Proof.
  intros W P. destruct (lex1_peek (p_lex p) 91 KLbrack W P) as (x & s' & L & K & T); try lia; auto.
  rewrite (expect_of_lex U _ KLbrack p x s' (shape_lbrack U)); auto; discriminate.
Qed.

Lemma parse_blame n :
  (forall x p q, parse_node n (x_tok x) p = Panic q ->
     wf_ls (p_lex p) -> p_tok p = x_tok x -> x_peek x = p_peek p -> tok_shape U (x_tok x) ->
     xk x <> KEOF -> blames [x] (p_lex p) q) /\
  (forall c p q, parse_loop n (stop_of c) p = Panic q -> wf_ls (p_lex p) -> blames [] (p_lex p) q) /\
  (forall p q, parse_script n p = Panic q -> wf_ls (p_lex p) -> blames [] (p_lex p) q) /\
  (forall sig p q, parse_args n sig p = Panic q -> wf_ls (p_lex p) -> blames [] (p_lex p) q).
Proof.
  induction n as [|n (IHn & IHl & IHs & IHa)]; [repeat split; discriminate|].
  split; [|split; [|split]].
  - intros x p q H W T P Sh NE. revert H. rewrite parse_node_S. fold (xk x) (xt x) (xp x).
    assert (Here : forall q', culprit q' [x] (p_lex p) -> Panic (A := node * pst) q' = Panic q ->
      blames [x] (p_lex p) q).
    { intros q' C [= <-]. exists [], (p_lex p). split; [constructor|exact C]. }
    destruct (xk x) eqn:K; try discriminate; try contradiction;
      try (exfalso; unfold tok_shape in Sh; unfold xk in K; rewrite K in Sh; exact Sh).
    + destruct (lookup_macro (xt x)) as [[sig|]|] eqn:E.
      * intros H. apply bind_panic in H as [H|([args p1] & _ & H)]; [|discriminate].
        apply blames_pre. eapply IHa; eassumption.
      * apply Here. exists [], x. repeat split; auto. now apply nil_macro_name.
      * apply Here. exists [], x. repeat split; auto.
    + destruct (p_mode p); discriminate.
    + destruct (String.eqb_spec (xt x) "$") as [E|N1].
      { intros H. apply bind_panic in H as [H|([[ns rt] p1] & _ & H)]; [|discriminate].
        apply blames_pre. apply (IHl CDollar) in H; exact H || exact W. }
      destruct (String.eqb_spec (xt x) "^") as [E|N2].
      { intros H. apply bind_panic in H as [H|([nd p1] & _ & H)]; [|discriminate].
        apply blames_pre. eapply IHs; eassumption. }
      destruct (String.eqb_spec (xt x) "_") as [E|N3].
      { intros H. apply bind_panic in H as [H|([nd p1] & _ & H)]; [|discriminate].
        apply blames_pre. eapply IHs; eassumption. }
      discriminate.
    + destruct (p_mode p) eqn:M.
      * apply Here. exists [], x. auto.
      * intros H. apply bind_panic in H as [H|([[ns rt] p1] & _ & H)]; [|discriminate].
        apply blames_pre. apply (IHl CBrace) in H; exact H || exact W.
    + apply Here. left. split; [reflexivity|]. exists [], x. auto.
    + apply Here. exists [], x. auto.
  - intros c p q H W. rewrite parse_loop_S in H.
    apply bind_panic in H as [H|([ok p1] & S & H)]; [now apply snext_panic|].
    apply snext_ok in S as (M & x & L & T & P & K). destruct ok; [|discriminate].
    assert (NE : xk x <> KEOF) by now apply K.
    pose proof (lex1_shape _ _ _ _ W L) as Sh. pose proof (lex1_wf _ _ _ _ W L) as W1.
    pose proof (lex1_reads _ _ _ L NE) as R1.
    destruct (stops (stop_of c) (p_tok p1)); [discriminate|]. rewrite T in H.
    apply bind_panic in H as [H|([nd p2] & H1 & H)].
    + apply IHn in H; auto. destruct H as (ys & s' & L' & C).
      exists (x :: ys), s'. split; [econstructor; eassumption|exact C].
    + apply bind_panic in H as [H|([[ns r] p3] & _ & H)]; [|discriminate].
      apply parse_sound in H1 as (M2 & xs & o & R & _); auto.
      assert (W2 : wf_ls (p_lex p2)) by (eapply Reads_wf; eassumption).
      apply IHl in H; auto. eapply blames_reads; [exact R1|].
      eapply blames_reads; eassumption.
  - intros p q H W. rewrite parse_script_S in H.
    destruct (Z.eqb_spec (p_peek p) 123) as [Pk|Pk].
    + apply bind_panic in H as [H|(p1 & E & H)]; [now apply expect_brace_panic|].
      apply (expect_ok _ _ KLbrace _ _ (shape_lbrace U)) in E as (M & x & L & T & P & K); [|discriminate|assumption].
      pose proof (lex1_wf _ _ _ _ W L) as W1.
      apply bind_panic in H as [H|([[ns rt] p2] & _ & H)]; [|discriminate].
      apply (IHl CBrace) in H; auto. eapply blames_reads; [|exact H].
      apply lex1_reads with (x := x); auto. rewrite K; discriminate.
    + apply bind_panic in H as [H|([t p1] & E & H)]; [now apply pnext_panic|].
      unfold Parser.pnext in E. apply bind_ok in E as ([ok p2] & S & E).
      apply snext_ok in S as (M & x & L & T & P & K). destruct ok.
      * injection E as <- <-. assert (NE : xk x <> KEOF) by now apply K.
        rewrite T in H. apply IHn in H; auto.
        -- destruct H as (ys & s' & L' & C).
           exists (x :: ys), s'. split; [econstructor; eassumption|exact C].
        -- eapply lex1_wf; eassumption.
        -- eapply lex1_shape; eassumption.
      * injection E as <- <-. destruct n; [discriminate|]. rewrite parse_node_S in H. cbn in H.
        injection H as <-. exists [], (p_lex p). split; [constructor|]. cbn. right. split; [reflexivity|].
        exists (p_lex p2), x. split; [assumption|].
        destruct (kind_beq (xk x) KEOF) eqn:B; [now apply kind_beq_eq|].
        apply kind_beq_neq in B. apply K in B. discriminate.
  - intros sig p q H W. rewrite parse_args_S in H. destruct sig as [|c sig']; [discriminate|].
    destruct (sig_cases c) as [E|[E|[N1 N2]]].
    + rewrite E in H. apply bind_panic in H as [H|(p1 & Ex & H)]; [now apply expect_brace_panic|].
      apply (expect_ok _ _ KLbrace _ _ (shape_lbrace U)) in Ex as (M & x & L & T & P & K); [|discriminate|assumption].
      pose proof (lex1_wf _ _ _ _ W L) as W1.
      assert (R1 : Reads (p_lex p) [x] false (p_lex p1)) by (apply lex1_reads; auto; rewrite K; discriminate).
      apply bind_panic in H as [H|([[ns rt] p2] & H1 & H)].
      * apply (IHl CBrace) in H; auto. eapply blames_reads; eassumption.
      * apply bind_panic in H as [H|([args p3] & _ & H)]; [|discriminate].
        apply (proj1 (proj2 (parse_sound U n)) CBrace) in H1 as (M2 & xs & o & R & _); auto.
        apply IHa in H; [|eapply Reads_wf; eassumption].
        eapply blames_reads; [exact R1|]. eapply blames_reads; eassumption.
    + rewrite E in H. destruct (Z.eqb_spec (p_peek p) 91) as [Pk|Pk]; [|eapply IHa; eassumption].
      apply bind_panic in H as [H|(p1 & Ex & H)]; [exfalso; eapply expect_brack_ok; eassumption|].
      apply (expect_ok _ _ KLbrack _ _ (shape_lbrack U)) in Ex as (M & x & L & T & P & K); [|discriminate|assumption].
      pose proof (lex1_wf _ _ _ _ W L) as W1.
      assert (R1 : Reads (p_lex p) [x] false (p_lex p1)) by (apply lex1_reads; auto; rewrite K; discriminate).
      apply bind_panic in H as [H|([[ns rt] p2] & H1 & H)].
      * apply (IHl CBrack) in H; auto. eapply blames_reads; eassumption.
      * apply bind_panic in H as [H|([args p3] & _ & H)]; [|discriminate].
        apply (proj1 (proj2 (parse_sound U n)) CBrack) in H1 as (M2 & xs & o & R & _); auto.
        apply IHa in H; [|eapply Reads_wf; eassumption].
        eapply blames_reads; [exact R1|]. eapply blames_reads; eassumption.
    + rewrite ascii_match in H by assumption. eapply IHa; eassumption.
Qed.

Theorem parse_expr_blame x q :
  parse_expr U x = Panic q -> exists xs s, Lexes (init_lex x) xs s /\ culprit q xs s.
Proof.
  unfold parse_expr. intros H. apply bind_panic in H as [H|([[ns r] p] & _ & H)]; [|discriminate].
  apply (proj1 (proj2 (parse_blame _)) CNone) in H; [exact H|]. apply init_lex_wf.
Qed.

Theorem parse_expr_total x : exists r, parse_expr U x = r /\ r <> OutOfFuel.
Proof. eexists. split; [reflexivity|]. apply parse_expr_no_fuel. Qed.

End WithLetters.
