(** Properties of the lexer and the parser (ParseExpr). *)
From Coq Require Import ZArith String Ascii List Bool Lia ZifyBool.
From Verif Require Import Utf8 GoScanner Token Lexer Ast MacroTable SymTable Parser
  Utf8Facts LexFacts LexText Grammar Stream ParserFacts GrammarFacts PanicSpec PanicFacts
  TreeSpec TreeFacts TreeFacts2 TreeFacts3 TreeFacts4 LexTail LexProps.
Import ListNotations.
Local Open Scope string_scope.
Local Open Scope list_scope.
Local Open Scope Z_scope.

(** ** C01 *)

(** ParseExpr terminates with a node list or a panic (the model's third result,
    exhausted recursion fuel, does not occur). *)
Theorem C01_terminates U x :
  (exists ns, parse_expr U x = Ok ns) \/ (exists q, parse_expr U x = Panic q).
Proof.
  destruct (parse_expr U x) as [ns|q|] eqn:E; [eauto|eauto|].
  destruct (parse_expr_no_fuel U x E).
Qed.

(** Each panic is caused by the token just read (or the end of the input). *)
Theorem C01_panic_causes U x q :
  parse_expr U x = Panic q -> exists xs s, Lexes U (init_lex x) xs s /\ culprit U q xs s.
Proof. apply parse_expr_blame. Qed.

Example C01_ex_ok : exists ns, parse_expr ascii_only "a $x^{2}$" = Ok ns /\ ns <> [].
Proof. eexists. split; [vm_compute; reflexivity|discriminate]. Qed.
Example C01_ex_codes :
  parse_expr ascii_only "a#b" = Panic (PUnhandled 35) /\
  parse_expr ascii_only "\nosuch" = Panic (PUnknownMacro "\nosuch") /\
  parse_expr ascii_only "$\genfrac$" = Panic PNilMacro /\
  parse_expr ascii_only "$\frac x$" = Panic (PExpected "{" " ") /\
  parse_expr ascii_only "a{b}" = Panic PBraceText /\
  parse_expr ascii_only """str""" = Panic (POther """str""") /\
  parse_expr ascii_only "$x}$" = Panic (PImpossible KRbrace) /\
  parse_expr ascii_only "$x^" = Panic (PImpossible KEOF).
Proof. repeat split; vm_compute; reflexivity. Qed.

(** ** C02 *)

(** Lexing never gets stuck: it reaches the end of the input, or a character
    that starts no token. *)
Theorem C02_lexing_total U x :
  (exists xs, Tokens U x xs) \/
  (exists xs s r, Lexes U (init_lex x) xs s /\ lex1 U s = LexPanic r /\ unhandled U r).
Proof.
  destruct (lex_total U (init_lex x)) as [(xs & s & R)|(xs & s & r & L & P)].
  - left. exists xs, s. exact R.
  - right. exists xs, s, r. repeat split; try assumption; now apply lex1_panic in P as (?&?&?&?&?&?&?&?&?).
Qed.

(** The source is the optional byte-order mark, then the tokens read so far at
    their positions with only TAB, LF and CR between them, then the unread rest. *)
Theorem C02_tokens_tile U x xs s :
  Lexes U (init_lex x) xs s ->
  exists bom src, x = append bom src /\ (bom = "" \/ bom = bom_bytes) /\
    Tiles (zlen bom) src xs (l_off s) (raw_of (l_rest s)).
Proof.
  intros L. destruct (init_lex_source x) as (bom & E & O & B).
  exists bom, (raw_of (l_rest (init_lex x))). rewrite <- O. repeat split; auto.
  eapply Lexes_tiles; [apply init_lex_wf|eassumption].
Qed.

(** For a complete stream the rest is only whitespace, and positions strictly
    increase. *)
Theorem C02_tokens_tile_all U x xs :
  Tokens U x xs ->
  increasing (map xp xs) /\
  exists bom src o w, x = append bom src /\ (bom = "" \/ bom = bom_bytes) /\
    Tiles (zlen bom) src xs o w /\ ws_string w.
Proof.
  intros T. split; [eapply ordered_increasing, Tokens_ordered; exact T|].
  destruct T as (s & t & L & F). destruct (C02_tokens_tile U x xs t L) as (bom & src & E & B & T).
  exists bom, src, (l_off t), (raw_of (l_rest t)). repeat split; auto.
  destruct F as (y & F & K). pose proof (lex1_split _ _ _ _ F) as (R & W & _ & _ & _ & Q & _).
  destruct (Q K) as (Q1 & Q2 & _). rewrite R, Q1, Q2, !app_nil_r. cbn.
  apply ws_raw; [|assumption].
  assert (Wt : wf_ls t) by (eapply Lexes_wf; [apply init_lex_wf|eassumption]).
  unfold wf_ls in Wt. rewrite R in Wt. now apply Forall_app in Wt as [Wt _].
Qed.

Example C02_ex : exists xs, Tokens ascii_only "ab  12\cos" xs /\ map pos_text xs =
  [(0, "ab"); (2, " "); (3, " "); (4, "12"); (6, "\cos")].
Proof.
  eexists. split; [eapply lex_all_tokens; vm_compute; reflexivity|reflexivity].
Qed.

(** ** C03 *)

(** Token text is the source text at the token's position, except that
    whitespace directly after a macro's backslash is not part of its text. *)
Theorem C03_token_text U x xs s l :
  Lexes U (init_lex x) xs s -> In l xs ->
  (xk l <> KComment -> xk l <> KMacro -> slice x (xp l) (xp l + zlen (xt l)) = Some (xt l)) /\
  (xk l = KMacro -> exists w nm, xt l = append "\" nm /\ ws_string w /\
     slice x (xp l) (xp l + 1 + zlen w + zlen nm) = Some (append "\" (append w nm))).
Proof.
  intros L I. destruct (Lexes_located _ _ _ _ _ (init_located x) L) as [_ F].
  rewrite Forall_forall in F. specialize (F _ I). split; intros; [eapply LexAt_text|eapply LexAt_macro]; eassumption.
Qed.

(** The text of a comment without double quotes is its line without carriage
    returns, and the comment's extent includes the newline. *)
Theorem C03_comment_text U o pc body nl rest :
  c_rune pc = 37 -> c_rune nl = 10 -> Forall (fun c => c_rune c <> 10 /\ c_rune c <> 34) body ->
  lex1 U (mk_ls o (pc :: body ++ nl :: rest)) =
  LexOk (mk_lx (mk_tok KComment o (append "%" (raw_of (filter (fun c => negb (c_rune c =? 13)) body))))
               [] (pc :: body ++ [nl]) (peek rest))
        (mk_ls (o + clen (pc :: body ++ [nl])) rest).
Proof.
  intros P N F. unfold lex1. cbn [l_rest l_off]. unfold gscan. cbn [span].
  assert (W : is_ws (c_rune pc) = false) by now rewrite P. rewrite W. cbn [span].
  assert (L : is_letter U (c_rune pc) = false) by (rewrite P; reflexivity). rewrite L, P. cbn [is_decimal in_range Z.leb Z.compare Z.eqb Pos.eqb andb Pos.compare Pos.compare_cont].
  rewrite (scan_comment_line U _ body nl rest N F) by lia.
  cbn [app]. replace (o + clen []) with o by (cbn; lia). reflexivity.
Qed.

Example C03_ex_gap :
  exists xs, Tokens ascii_only (append "\" (String "010" "alpha")) xs /\
    map pos_text xs = [(0, "\alpha")].
Proof.
  eexists. split; [eapply lex_all_tokens; vm_compute; reflexivity|reflexivity].
Qed.

(** ** C04 *)

(** The source text at the position of each leaf is its text. *)
Theorem C04_leaf_text U x ns n :
  parse_expr U x = Ok ns -> In n (flat_map subnodes ns) ->
  match n with
  | NWord p t | NLit p t | NSym p t =>
    node_pos n = Some p /\ node_end n = Some (p + zlen t) /\ slice x p (p + zlen t) = Some t
  | NIdent p t =>
    exists w nm, t = append "\" nm /\ ws_string w /\
      slice x p (p + 1 + zlen w + zlen nm) = Some (append "\" (append w nm))
  | NSub p _ => slice x p (p + 1) = Some "_"
  | NSup p _ => slice x p (p + 1) = Some "^"
  | _ => True
  end.
Proof.
  intros P I. destruct (parse_expr_sound U x ns P) as (xs & T & G).
  destruct (grammar_leaves U) as (_ & GL & _). destruct (GL _ _ _ _ _ _ G) as [A _].
  specialize (A _ I). pose proof (Tokens_at U x xs T) as F. rewrite Forall_forall in F.
  destruct n; cbn in A |- *; auto.
  - destruct A as (l & Il & K & <- & <-). eapply LexAt_macro; eauto.
  - destruct A as (l & Il & K & <- & <-). repeat split; auto. eapply LexAt_text; eauto; congruence.
  - destruct A as (l & Il & K & <- & <-). repeat split; auto. eapply LexAt_text; eauto; congruence.
  - destruct A as (l & Il & K & K2 & <- & <-). repeat split; auto. eapply LexAt_text; eauto; congruence.
  - destruct A as (l & Il & K & <- & E). pose proof (LexAt_text U x l (F _ Il) ltac:(congruence) ltac:(congruence)) as S.
    rewrite E in S. exact S.
  - destruct A as (l & Il & K & <- & E). pose proof (LexAt_text U x l (F _ Il) ltac:(congruence) ltac:(congruence)) as S.
    rewrite E in S. exact S.
Qed.

Example C04_ex : parse_expr ascii_only "ab \sqrt{c}$d_1$" =
  Ok [NWord 0 "ab"; NSym 2 " "; NMacro (Some (3, "\sqrt")) [NArg 8 [NWord 9 "c"] 10];
      NMath "$" 11 [NWord 12 "d"; NSub 13 (NLit 14 "1")] 15].
Proof. vm_compute. reflexivity. Qed.

(** ** C05 *)

(** ParseExpr accepts exactly the token streams of the grammar of [Grammar.v]
    and returns the tree the grammar assigns to them. *)
Theorem C05_grammar U x ns :
  parse_expr U x = Ok ns <-> exists xs, Tokens U x xs /\ GDoc known_macro xs ns.
Proof. apply parse_expr_iff. Qed.

(** The tree accounts for all tokens except comments, spaces and braces. *)
Theorem C05_tokens U x ns :
  parse_expr U x = Ok ns ->
  exists xs, Tokens U x xs /\ flat_map tree_tokens ns = map pos_text (filter solid xs).
Proof.
  intros P. destruct (parse_expr_sound U x ns P) as (xs & T & G). exists xs. split; [assumption|].
  destruct (grammar_tokens U) as (_ & GL & _).
  specialize (GL _ _ _ _ _ _ G (l_off (init_lex x)) (init_off_nonneg x) (or_introl eq_refl)
    (LexAt_shaped U x xs (Tokens_at U x xs T)) (Tokens_ordered U x xs T)).
  cbn [closed_pos] in GL. now rewrite app_nil_r in GL.
Qed.

(** ** C07 *)

(** Macro nodes have a known name and the arguments of its signature. *)
Theorem C07_macro_nodes U x ns nm args :
  parse_expr U x = Ok ns -> In (NMacro nm args) (flat_map subnodes ns) ->
  exists p t sg, nm = Some (p, t) /\ known_macro t = Some sg /\ args_match sg args.
Proof.
  intros P I. destruct (parse_expr_sound U x ns P) as (xs & T & G).
  destruct (grammar_leaves U) as (_ & GL & _). destruct (GL _ _ _ _ _ _ G) as [A _].
  destruct (A _ I) as (p & t & sg & E & K & M & _). exists p, t, sg. auto.
Qed.

Example C07_ex :
  known_macro "\sqrt" = Some [Opt; Req] /\ known_macro "\frac" = Some [Req; Req] /\
  known_macro "\alpha" = Some [] /\ known_macro "\nosuch" = None /\ known_macro "\genfrac" = None /\
  parse_expr ascii_only "$\sqrt[3]{x}$" =
  Ok [NMath "$" 0 [NMacro (Some (1, "\sqrt")) [NOptArg 6 [NLit 7 "3"] 8; NArg 9 [NWord 10 "x"] 11]] 12].
Proof. repeat split; vm_compute; reflexivity. Qed.

(** ** C09 *)

(** No blank symbol below a math expression. *)
Theorem C09_no_blank_in_math U x ns d a l b n :
  parse_expr U x = Ok ns -> In (NMath d a l b) (flat_map subnodes ns) ->
  In n (flat_map subnodes l) -> is_blank n = false.
Proof.
  intros P I In_. destruct (parse_expr_sound U x ns P) as (xs & T & G).
  destruct (grammar_blank U) as (_ & GL & _).
  destruct (GL _ _ _ _ _ _ G (LexAt_shaped U x xs (Tokens_at U x xs T))) as [_ B].
  exact (B _ I n In_).
Qed.

(** Without math every token except comments and braces, spaces included, is in
    the tree. *)
Theorem C09_spaces_kept_in_text U x ns xs :
  parse_expr U x = Ok ns -> Tokens U x xs ->
  (forall l, In l xs -> ~ (xk l = KSymbol /\ xt l = "$")) ->
  flat_map tree_tokens_sp ns = map pos_text (filter solid_sp xs).
Proof.
  intros P T0 D. destruct (parse_expr_sound U x ns P) as (xs' & T & G).
  pose proof (Tokens_det U x _ _ T T0) as E. subst xs'. clear T0.
  destruct (grammar_tokens_sp U) as (_ & GL & _).
  specialize (GL _ _ _ _ _ _ G (l_off (init_lex x)) eq_refl (proj2 (Forall_forall _ _) D)
    (init_off_nonneg x) (or_introl eq_refl)
    (LexAt_shaped U x xs (Tokens_at U x xs T)) (Tokens_ordered U x xs T)).
  cbn [closed_pos] in GL. now rewrite app_nil_r in GL.
Qed.

Example C09_ex :
  parse_expr ascii_only "a b" = Ok [NWord 0 "a"; NSym 1 " "; NWord 2 "b"] /\
  parse_expr ascii_only "$a  b\ c$" = Ok [NMath "$" 0 [NWord 1 "a"; NWord 4 "b"; NWord 7 "c"] 8] /\
  (* a space right after ^ is not harmless: it becomes a nil operand *)
  parse_expr ascii_only "$x^ 2$" = Ok [NMath "$" 0 [NWord 1 "x"; NSup 2 NNil; NLit 4 "2"] 5].
Proof. repeat split; vm_compute; reflexivity. Qed.

(** ** C13 *)

(** A group without a recorded closing position was cut by the end of the
    input: it lies on the right spine of the tree (the last node, the last
    child of the last node, ...).  A recorded closing or opening position is
    that of the right delimiter in the source. *)
Theorem C13_delimiters U x ns n :
  parse_expr U x = Ok ns -> In n (flat_map subnodes ns) ->
  (closing n = Some 0 -> In n (last_spine ns)) /\
  match n with
  | NMath d a _ b =>
    d = "$" /\ slice x a (a + 1) = Some "$" /\ (b <> 0 -> slice x b (b + 1) = Some "$")
  | NArg a _ b => slice x a (a + 1) = Some "{" /\ (b <> 0 -> slice x b (b + 1) = Some "}")
  | NOptArg a _ b => slice x a (a + 1) = Some "[" /\ (b <> 0 -> slice x b (b + 1) = Some "]")
  | _ => True
  end.
Proof.
  intros P I. destruct (parse_expr_sound U x ns P) as (xs & T & G).
  split.
  { intros C. destruct grammar_spine as (_ & GS & _).
    destruct (GS _ _ _ _ _ _ G _ (init_off_nonneg x) (Tokens_ordered U x xs T)) as (S & _).
    now destruct (S _ I C). }
  destruct (grammar_leaves U) as (_ & GL & _). destruct (GL _ _ _ _ _ _ G) as [A _].
  specialize (A _ I). pose proof (Tokens_at U x xs T) as F. rewrite Forall_forall in F.
  assert (Q : forall l t, In l xs -> xk l <> KComment -> xk l <> KMacro -> xt l = t ->
     slice x (xp l) (xp l + zlen t) = Some t).
  { intros l t Il K1 K2 <-. eapply LexAt_text; eauto. }
  assert (K : forall l k t, In l xs -> xk l = k ->
     match k with KLbrace => t = "{" | KRbrace => t = "}" | KLbrack => t = "[" | KRbrack => t = "]" | _ => False end ->
     slice x (xp l) (xp l + 1) = Some t).
  { intros l k t Il Kl Kt. pose proof (LexAt_shape U x l (F _ Il)) as Sh. unfold tok_shape in Sh.
    fold (xk l) (xt l) in Sh. rewrite Kl in Sh.
    destruct k; try contradiction; subst t;
      first [ apply (Q l "{" Il); congruence | apply (Q l "}" Il); congruence
            | apply (Q l "[" Il); congruence | apply (Q l "]" Il); congruence ]. }
  destruct n; cbn in A |- *; auto.
  - destruct A as ((l1 & I1 & K1 & <-) & B). split; [eapply K; eauto; reflexivity|].
    intros N. destruct B as [B|(l2 & I2 & K2 & <-)]; [congruence|]. eapply K; eauto; reflexivity.
  - destruct A as ((l1 & I1 & K1 & <-) & B). split; [eapply K; eauto; reflexivity|].
    intros N. destruct B as [B|(l2 & I2 & K2 & <-)]; [congruence|]. eapply K; eauto; reflexivity.
  - destruct A as (-> & (l1 & I1 & K1 & T1 & <-) & B). split; [reflexivity|].
    split; [apply (Q l1 "$"); congruence|].
    intros N. destruct B as [B|(l2 & I2 & K2 & T2 & <-)]; [congruence|]. apply (Q l2 "$"); congruence.
Qed.

Example C13_ex :
  parse_expr ascii_only "a $b \sqrt{c" =
  Ok [NWord 0 "a"; NSym 1 " "; NMath "$" 2 [NWord 3 "b"; NMacro (Some (5, "\sqrt")) [NArg 10 [NWord 11 "c"] 0]] 0] /\
  (* an unclosed group of a script leaves no trace at all *)
  parse_expr ascii_only "x^{ab" = Ok [NWord 0 "x"; NSup 1 (NList [NWord 3 "ab"])] /\
  parse_expr ascii_only "x^{ab}" = Ok [NWord 0 "x"; NSup 1 (NList [NWord 3 "ab"])].
Proof. repeat split; vm_compute; reflexivity. Qed.

(** ** C14 *)

(** Nil nodes occur only as operands of ^ and _, directly before a comment or a
    space token; outside math only before a comment. *)
Theorem C14_nil_nodes U x ns :
  parse_expr U x = Ok ns ->
  ~ In NNil ns /\
  exists xs, Tokens U x xs /\
  (forall n, In n (flat_map subnodes ns) ->
     ~ In NNil (list_children n) /\
     (script_operand n = Some NNil ->
        exists pre l1 l2 post, xs = pre ++ l1 :: l2 :: post /\ node_pos n = Some (xp l1) /\
          (xt l1 = "^" \/ xt l1 = "_") /\ (xk l2 = KComment \/ xk l2 = KSpace))) /\
  (forall n, In n (flat_map text_subnodes ns) -> script_operand n = Some NNil ->
     exists pre l1 l2 post, xs = pre ++ l1 :: l2 :: post /\ node_pos n = Some (xp l1) /\
       (xt l1 = "^" \/ xt l1 = "_") /\ xk l2 = KComment).
Proof.
  intros P. destruct (parse_expr_sound U x ns P) as (xs & T & G).
  destruct grammar_nil as (_ & GL & _). destruct (GL _ _ _ _ _ _ G) as [[A B] C].
  split; [assumption|]. exists xs. split; [assumption|]. split.
  - intros n I. destruct (A n I) as [A1 A2]. split; [assumption|]. intros E.
    destruct (A2 E) as (pre & l1 & l2 & post & H1 & H2 & H3 & H4).
    exists pre, l1, l2, post. repeat split; auto. tauto.
  - intros n I E. destruct (B eq_refl n I E) as (pre & l1 & l2 & post & H1 & H2 & H3 & H4).
    exists pre, l1, l2, post. repeat split; auto. destruct H4 as [H4|[H4 _]]; [assumption|discriminate].
Qed.

Example C14_ex :
  parse_expr ascii_only (append "x^%c" (String "010" "2")) = Ok [NWord 0 "x"; NSup 1 NNil; NLit 5 "2"] /\
  parse_expr ascii_only "$x_ 2$" = Ok [NMath "$" 0 [NWord 1 "x"; NSub 2 NNil; NLit 4 "2"] 5].
Proof. split; vm_compute; reflexivity. Qed.

(** ** C18 *)

(** Extents: Pos is before End, no token of a node is before its Pos, and
    siblings are in source order without overlap. The sentinels -1 (Pos/End of
    an empty list) and 0 (closing position of an unclosed group) are excluded
    by [real_pos] and [real_end]. *)
Theorem C18_extents U x ns :
  parse_expr U x = Ok ns ->
  siblings_ordered ns /\
  forall n, In n (flat_map subnodes ns) ->
    (forall p e, real_pos n p -> real_end n e -> p < e) /\
    (forall p q t, real_pos n p -> In (q, t) (tree_tokens n) -> p <= q) /\
    siblings_ordered (list_children n).
Proof.
  intros P. destruct (parse_expr_sound U x ns P) as (xs & T & G).
  destruct grammar_extent as (_ & GL & _).
  destruct (GL _ _ _ _ _ _ G _ (init_off_nonneg x) (Tokens_fits U x xs T) (Tokens_ordered U x xs T)) as (W & A & _).
  split; [eapply within_siblings; eassumption|]. intros n I. exact (A n I).
Qed.

(** End() of a closed delimited node is the position OF the closing delimiter. *)
Theorem C18_end_is_closer U x ns n e :
  parse_expr U x = Ok ns -> In n (flat_map subnodes ns) ->
  closing n <> None -> node_end n = Some e -> e <> 0 ->
  exists c, slice x e (e + 1) = Some c /\ (c = "$" \/ c = "}" \/ c = "]").
Proof.
  intros P I C E N. destruct (C13_delimiters U x ns n P I) as [_ D].
  destruct n; cbn in C; try congruence; cbn in E; injection E as <-.
  - exists "}". split; [tauto|auto].
  - exists "]". split; [tauto|auto].
  - exists "$". split; [tauto|auto].
Qed.

Example C18_ex :
  node_pos (NMath "$" 2 [NWord 3 "b"] 4) = Some 2 /\ node_end (NMath "$" 2 [NWord 3 "b"] 4) = Some 4 /\
  parse_expr ascii_only "a $b$" = Ok [NWord 0 "a"; NSym 1 " "; NMath "$" 2 [NWord 3 "b"] 4] /\
  slice "a $b$" 2 4 = Some "$b".
Proof. repeat split; vm_compute; reflexivity. Qed.

(** ** C22 *)

(** Every Unicode scalar value is read back from its UTF-8 encoding. *)
Theorem C22_decode_encode l s :
  forallb valid_rune l = true ->
  chars (append (encode_runes l) s) = map (fun r => mk_chr r (encode_valid r)) l ++ chars s.
Proof. apply chars_encode_runes. Qed.

(** Every byte string is split without loss, into non-empty characters. *)
Theorem C22_lossless s :
  raw_of (chars s) = s /\ Forall (fun c => c_raw c <> "") (chars s).
Proof.
  split; [apply chars_raw|]. eapply Forall_impl; [|apply chars_wf]. now intros c (H & _).
Qed.

Example C22_ex : valid_rune 233 = true /\ valid_rune 128512 = true /\ valid_rune 55296 = false /\
  encode_runes [233; 128512] = String "195" (String "169" (String "240" (String "159" (String "152" (String "128" ""))))).
Proof. repeat split; vm_compute; reflexivity. Qed.

Print Assumptions C01_terminates.
Print Assumptions C01_panic_causes.
Print Assumptions C02_lexing_total.
Print Assumptions C02_tokens_tile.
Print Assumptions C02_tokens_tile_all.
Print Assumptions C03_token_text.
Print Assumptions C03_comment_text.
Print Assumptions C04_leaf_text.
Print Assumptions C05_grammar.
Print Assumptions C05_tokens.
Print Assumptions C07_macro_nodes.
Print Assumptions C09_no_blank_in_math.
Print Assumptions C09_spaces_kept_in_text.
Print Assumptions C13_delimiters.
Print Assumptions C14_nil_nodes.
Print Assumptions C18_extents.
Print Assumptions C18_end_is_closer.
Print Assumptions C22_decode_encode.
Print Assumptions C22_lossless.
