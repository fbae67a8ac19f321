(** The parser is total, and sound and complete for the grammar. *)
From Coq Require Import ZArith String Ascii List Bool Lia ZifyBool.
From Verif Require Import Utf8 GoScanner Token Lexer Ast MacroTable SymTable Parser
  Utf8Facts LexFacts LexText Grammar Stream.
Import ListNotations.
Local Open Scope string_scope.
Local Open Scope Z_scope.

Lemma kind_beq_eq a b : kind_beq a b = true <-> a = b.
Proof. destruct a, b; cbn; split; congruence. Qed.

Lemma kind_beq_neq a b : kind_beq a b = false <-> a <> b.
Proof.
  split.
  - intros H E. apply kind_beq_eq in E. congruence.
  - intros H. destruct (kind_beq a b) eqn:E; [|reflexivity].
    apply kind_beq_eq in E. contradiction.
Qed.

(** All signatures have at most two slots. *)
Lemma sig_length name sig :
  lookup_macro name = Some (Some sig) -> (String.length sig <= 2)%nat.
Proof.
  unfold lookup_macro.
  assert (A : forall l, forallb (fun kv : string * option string =>
       match snd kv with Some s => Nat.leb (String.length s) 2 | None => true end) l = true ->
       forall k s, assoc k l = Some (Some s) -> (String.length s <= 2)%nat).
  { induction l as [|[k' v] l IH]; cbn [forallb assoc snd]; intros H k s; [discriminate|].
    apply andb_true_iff in H as [H1 H2]. destruct (String.eqb k k'); [|apply IH; assumption].
    intros [= ->]. now apply Nat.leb_le. }
  destruct (assoc name builtin_macros) as [v|] eqn:E.
  - intros [= ->]. eapply A; [|exact E]. vm_compute. reflexivity.
  - destruct name as [|a nm]; [discriminate|].
    intros H. repeat dmatch H; try discriminate; inv H; cbn; lia.
Qed.

Section WithLetters.
Variable U : Z -> bool.
Notation lex1 := (lex1 U).
Notation snext := (snext U).
Notation pnext := (pnext U).
Notation expect := (expect U).
Notation parse_node := (parse_node U).
Notation parse_loop := (parse_loop U).
Notation parse_script := (parse_script U).
Notation parse_args := (parse_args U).
Notation GNode := (GNode known_macro).
Notation GLoop := (GLoop known_macro).
Notation GScript := (GScript known_macro).
Notation GArgs := (GArgs known_macro).

(** Unfolding equations. *)
Lemma parse_node_S n tok p : parse_node (S n) tok p =
    match t_kind tok with
    | KComment => Ok (NNil, p)
    | KMacro =>
      match lookup_macro (t_text tok) with
      | None => Panic (PUnknownMacro (t_text tok))
      | Some None => Panic PNilMacro
      | Some (Some sig) =>
        let! (args, p1) := parse_args n sig p in
        Ok (NMacro (Some (t_pos (p_tok p), t_text (p_tok p))) args, p1)
      end
    | KWord => Ok (NWord (t_pos tok) (t_text tok), p)
    | KNumber => Ok (NLit (t_pos tok) (t_text tok), p)
    | KSymbol =>
      if String.eqb (t_text tok) "$" then
        let! (nodes, rt, p1) := parse_loop n (StopText "$") (set_mode MathMode p) in
        Ok (NMath (t_text tok) (t_pos tok) nodes rt, set_mode (p_mode p) p1)
      else if String.eqb (t_text tok) "^" then
        let! (x, p1) := parse_script n p in Ok (NSup (t_pos tok) x, p1)
      else if String.eqb (t_text tok) "_" then
        let! (x, p1) := parse_script n p in Ok (NSub (t_pos tok) x, p1)
      else Ok (NSym (t_pos tok) (t_text tok), p)
    | KLbrace =>
      match p_mode p with
      | MathMode =>
        let! (nodes, _, p1) := parse_loop n (StopKind KRbrace) p in
        Ok (NList nodes, p1)
      | Normal => Panic PBraceText
      end
    | KOther => Panic (POther (t_text tok))
    | KSpace =>
      match p_mode p with
      | MathMode => Ok (NNil, p)
      | Normal => Ok (NSym (t_pos tok) (t_text tok), p)
      end
    | KLparen | KRparen | KLbrack | KRbrack => Ok (NSym (t_pos tok) (t_text tok), p)
    | k => Panic (PImpossible k)
    end.
Proof. reflexivity. Qed.

Lemma parse_loop_S n st p : parse_loop (S n) st p =
    let! (ok, p1) := snext p in
    if ok then
      if stops st (p_tok p1) then Ok ([], t_pos (p_tok p1), p1)
      else
        let! (x, p2) := parse_node n (p_tok p1) p1 in
        let! (xs, r, p3) := parse_loop n st p2 in
        Ok (keep x xs, r, p3)
    else Ok ([], 0, p1).
Proof. reflexivity. Qed.

Lemma parse_script_S n p : parse_script (S n) p =
    if p_peek p =? 123 then
      let! p1 := expect "{" p in
      let! (nodes, _, p2) := parse_loop n (StopKind KRbrace) p1 in
      Ok (NList nodes, p2)
    else
      let! (t, p1) := pnext p in
      parse_node n t p1.
Proof. reflexivity. Qed.

Lemma parse_args_S n sig p : parse_args (S n) sig p =
    match sig with
    | EmptyString => Ok ([], p)
    | String c sig' =>
      match lower_ascii c with
      | "a"%char =>
        let! p1 := expect "{" p in
        let! (nodes, rb, p2) := parse_loop n (StopKind KRbrace) p1 in
        let! (args, p3) := parse_args n sig' p2 in
        Ok (NArg (t_pos (p_tok p1)) nodes rb :: args, p3)
      | "o"%char =>
        if p_peek p =? 91 then
          let! p1 := expect "[" p in
          let! (nodes, rb, p2) := parse_loop n (StopKind KRbrack) p1 in
          let! (args, p3) := parse_args n sig' p2 in
          Ok (NOptArg (t_pos (p_tok p1)) nodes rb :: args, p3)
        else parse_args n sig' p
      | _ => parse_args n sig' p
      end
    end.
Proof. reflexivity. Qed.

Lemma bind_ok {A B} (r : res A) (f : A -> res B) b :
  bind r f = Ok b -> exists a, r = Ok a /\ f a = Ok b.
Proof. destruct r; cbn; try discriminate. eauto. Qed.

Lemma bind_fuel {A B} (r : res A) (f : A -> res B) :
  bind r f = OutOfFuel -> r = OutOfFuel \/ exists a, r = Ok a /\ f a = OutOfFuel.
Proof. destruct r; cbn; try discriminate; eauto. Qed.

(** A case distinction on the signature character usable in proofs. *)
Lemma sig_cases (c : ascii) :
  lower_ascii c = "a"%char \/ lower_ascii c = "o"%char \/
  (lower_ascii c <> "a"%char /\ lower_ascii c <> "o"%char).
Proof.
  destruct (ascii_dec (lower_ascii c) "a"); [auto|].
  destruct (ascii_dec (lower_ascii c) "o"); auto.
Qed.

Lemma ascii_match {A} (c : ascii) (x y z : A) :
  c <> "a"%char -> c <> "o"%char ->
  match c with "a"%char => x | "o"%char => y | _ => z end = z.
Proof.
  intros H1 H2.
  destruct c as [b0 b1 b2 b3 b4 b5 b6 b7].
  destruct b0, b1, b2, b3, b4, b5, b6, b7; try reflexivity; exfalso;
    (apply H1; reflexivity) || (apply H2; reflexivity).
Qed.

(* ------------------------------------------------------------------ *)
(** ** Lengths: the parser only moves forward. *)

Definition plen (p : pst) : nat := List.length (l_rest (p_lex p)).

Lemma snext_len p ok p1 :
  snext p = Ok (ok, p1) ->
  (plen p1 <= plen p)%nat /\ (ok = true -> (plen p1 < plen p)%nat) /\
  p_mode p1 = p_mode p.
Proof.
  unfold Parser.snext, plen. destruct (lex1 (p_lex p)) as [x s|r] eqn:E; [|discriminate].
  intros H; inv H. cbn. split; [eapply lex1_le; eassumption|]. split; [|reflexivity].
  intros K. apply negb_true_iff, kind_beq_neq in K. eapply lex1_progress; eassumption.
Qed.

Lemma pnext_len p t p1 :
  pnext p = Ok (t, p1) ->
  (plen p1 <= plen p)%nat /\ (t_kind t <> KEOF -> (plen p1 < plen p)%nat) /\
  p_mode p1 = p_mode p.
Proof.
  unfold Parser.pnext. intros H. apply bind_ok in H as ([ok p2] & S & H).
  apply snext_len in S as (L1 & L2 & L3).
  destruct ok; inv H; repeat split; auto.
Qed.

Lemma expect_len v p p1 :
  v <> "" -> expect v p = Ok p1 ->
  (plen p1 < plen p)%nat /\ p_mode p1 = p_mode p.
Proof.
  unfold Parser.expect. intros Hv H. apply bind_ok in H as ([t p2] & S & H).
  unfold Parser.pnext in S. apply bind_ok in S as ([ok p3] & S & H').
  assert (p2 = p3) by (destruct ok; congruence). subst p3. clear H'.
  destruct (String.eqb_spec (t_text (p_tok p2)) v) as [E|]; [|discriminate]. inv H.
  pose proof (snext_len _ _ _ S) as (L1 & L2 & L3). split; [|assumption].
  unfold Parser.snext in S. destruct (lex1 (p_lex p)) as [x s|r] eqn:EL; [|discriminate].
  inv S. cbn in *.
  apply L2. apply negb_true_iff, kind_beq_neq. intros K.
  apply lex1_split in EL as (_ & _ & _ & _ & _ & N & _). destruct (N K) as (_ & _ & T).
  congruence.
Qed.

Lemma parse_len n :
  (forall tok p x p', parse_node n tok p = Ok (x, p') -> (plen p' <= plen p)%nat) /\
  (forall st p r p', parse_loop n st p = Ok (r, p') -> (plen p' <= plen p)%nat) /\
  (forall p x p', parse_script n p = Ok (x, p') -> (plen p' <= plen p)%nat) /\
  (forall sig p x p', parse_args n sig p = Ok (x, p') -> (plen p' <= plen p)%nat).
Proof.
  induction n as [|n (IHn & IHl & IHs & IHa)]; [repeat split; discriminate|].
  repeat split.
  - intros tok p x p'. rewrite parse_node_S.
    destruct (t_kind tok); try discriminate; try (intros H; inv H; lia).
    + destruct (lookup_macro _) as [[sig|]|]; try discriminate.
      intros H. apply bind_ok in H as ([a p1] & H & E). inv E. eauto.
    + destruct (p_mode p); intros H; inv H; lia.
    + destruct (String.eqb _ "$").
      { intros H. apply bind_ok in H as ([[a c] p1] & H & E). inv E.
        apply IHl in H. exact H. }
      destruct (String.eqb _ "^").
      { intros H. apply bind_ok in H as ([a p1] & H & E). inv E. eauto. }
      destruct (String.eqb _ "_").
      { intros H. apply bind_ok in H as ([a p1] & H & E). inv E. eauto. }
      intros H; inv H; lia.
    + destruct (p_mode p); [discriminate|].
      intros H. apply bind_ok in H as ([[a c] p1] & H & E). inv E. apply IHl in H. exact H.
  - intros st p r p'. rewrite parse_loop_S. intros H.
    apply bind_ok in H as ([ok p1] & S & H). apply snext_len in S as (S & _ & _).
    destruct ok; [|inv H; lia].
    destruct (stops st (p_tok p1)); [inv H; lia|].
    apply bind_ok in H as ([x p2] & H1 & H). apply bind_ok in H as ([[xs r'] p3] & H2 & H).
    inv H. apply IHn in H1. apply IHl in H2. lia.
  - intros p x p'. rewrite parse_script_S. destruct (p_peek p =? 123).
    + intros H. apply bind_ok in H as (p1 & E & H).
      apply expect_len in E as (E & _); [|discriminate].
      apply bind_ok in H as ([[xs r'] p3] & H2 & H). inv H. apply IHl in H2. lia.
    + intros H. apply bind_ok in H as ([t p1] & E & H). apply pnext_len in E as (E & _).
      apply IHn in H. lia.
  - intros sig p x p'. rewrite parse_args_S. destruct sig as [|c sig]; [intros H; inv H; lia|].
    destruct (sig_cases c) as [-> | [-> | [N1 N2]]]; [| |rewrite ascii_match by assumption; eauto].
    + intros H. apply bind_ok in H as (p1 & E & H).
      apply expect_len in E as (E & _); [|discriminate].
      apply bind_ok in H as ([[xs r'] p2] & H2 & H). apply IHl in H2.
      apply bind_ok in H as ([args p3] & H3 & H). apply IHa in H3. inv H. lia.
    + destruct (p_peek p =? 91); [|eauto].
      intros H. apply bind_ok in H as (p1 & E & H).
      apply expect_len in E as (E & _); [|discriminate].
      apply bind_ok in H as ([[xs r'] p2] & H2 & H). apply IHl in H2.
      apply bind_ok in H as ([args p3] & H3 & H). apply IHa in H3. inv H. lia.
Qed.

(* ------------------------------------------------------------------ *)
(** ** Fuel is always sufficient. *)

Lemma snext_no_fuel p : snext p <> OutOfFuel.
Proof. unfold Parser.snext. destruct (lex1 (p_lex p)); discriminate. Qed.

Lemma pnext_no_fuel p : pnext p <> OutOfFuel.
Proof.
  unfold Parser.pnext. intros H. apply bind_fuel in H as [H | ([ok p1] & _ & H)].
  - now apply snext_no_fuel in H.
  - destruct ok; discriminate.
Qed.

Lemma expect_no_fuel v p : expect v p <> OutOfFuel.
Proof.
  unfold Parser.expect. intros H. apply bind_fuel in H as [H | ([t p1] & _ & H)].
  - now apply pnext_no_fuel in H.
  - destruct (String.eqb _ _); discriminate.
Qed.

Lemma parse_fuel_ok n :
  (forall tok p, (8 * plen p + 5 <= n)%nat -> parse_node n tok p <> OutOfFuel) /\
  (forall st p, (8 * plen p + 1 <= n)%nat -> parse_loop n st p <> OutOfFuel) /\
  (forall p, (8 * plen p + 2 <= n)%nat -> parse_script n p <> OutOfFuel) /\
  (forall sig p, (8 * plen p + 1 + String.length sig <= n)%nat ->
     (String.length sig <= 2)%nat -> parse_args n sig p <> OutOfFuel).
Proof.
  induction n as [|n (IHn & IHl & IHs & IHa)]; [repeat split; intros; lia|].
  repeat split.
  - intros tok p L. rewrite parse_node_S.
    destruct (t_kind tok); try discriminate.
    + destruct (lookup_macro _) as [[sig|]|] eqn:E; try discriminate.
      pose proof (sig_length _ _ E).
      intros H0. apply bind_fuel in H0 as [H0|([a p1] & _ & H0)]; [|discriminate].
      apply IHa in H0; auto; lia.
    + destruct (p_mode p); discriminate.
    + destruct (String.eqb _ "$").
      { intros H0. apply bind_fuel in H0 as [H0|([[a c] p1] & _ & H0)]; [|discriminate].
        apply IHl in H0; auto. unfold plen in *; cbn; lia. }
      destruct (String.eqb _ "^").
      { intros H0. apply bind_fuel in H0 as [H0|([a p1] & _ & H0)]; [|discriminate].
        apply IHs in H0; auto; lia. }
      destruct (String.eqb _ "_").
      { intros H0. apply bind_fuel in H0 as [H0|([a p1] & _ & H0)]; [|discriminate].
        apply IHs in H0; auto; lia. }
      discriminate.
    + destruct (p_mode p); [discriminate|].
      intros H0. apply bind_fuel in H0 as [H0|([[a c] p1] & _ & H0)]; [|discriminate].
      apply IHl in H0; auto; lia.
  - intros st p L. rewrite parse_loop_S. intros H.
    apply bind_fuel in H as [H|([ok p1] & S & H)]; [now apply snext_no_fuel in H|].
    apply snext_len in S as (_ & S & _).
    destruct ok; [|discriminate]. specialize (S eq_refl).
    destruct (stops st (p_tok p1)); [discriminate|].
    apply bind_fuel in H as [H|([x p2] & H1 & H)]; [apply IHn in H; auto; lia|].
    apply parse_len in H1.
    apply bind_fuel in H as [H|([[xs r'] p3] & H2 & H)]; [apply IHl in H; auto; lia|].
    discriminate.
  - intros p L. rewrite parse_script_S. destruct (p_peek p =? 123); intros H.
    + apply bind_fuel in H as [H|(p1 & E & H)]; [now apply expect_no_fuel in H|].
      apply expect_len in E as (E & _); [|discriminate].
      apply bind_fuel in H as [H|([[xs r'] p3] & H2 & H)]; [apply IHl in H; auto; lia|].
      discriminate.
    + apply bind_fuel in H as [H|([t p1] & E & H)]; [now apply pnext_no_fuel in H|].
      apply pnext_len in E as (_ & E & _).
      destruct n as [|n]; [lia|].
      destruct (kind_beq (t_kind t) KEOF) eqn:K.
      * apply kind_beq_eq in K. rewrite parse_node_S, K in H. discriminate.
      * apply kind_beq_neq in K. specialize (E K).
        apply IHn in H; auto; lia.
  - intros sig p L Ls. rewrite parse_args_S. destruct sig as [|c sig]; [discriminate|].
    cbn [String.length] in *.
    destruct (sig_cases c) as [-> | [-> | [N1 N2]]];
      [| |rewrite ascii_match by assumption; apply IHa; lia].
    + intros H. apply bind_fuel in H as [H|(p1 & E & H)]; [now apply expect_no_fuel in H|].
      apply expect_len in E as (E & _); [|discriminate].
      apply bind_fuel in H as [H|([[xs r'] p2] & H2 & H)]; [apply IHl in H; auto; lia|].
      apply parse_len in H2.
      apply bind_fuel in H as [H|([args p3] & H3 & H)]; [apply IHa in H; auto; lia|].
      discriminate.
    + destruct (p_peek p =? 91); [|apply IHa; lia].
      intros H. apply bind_fuel in H as [H|(p1 & E & H)]; [now apply expect_no_fuel in H|].
      apply expect_len in E as (E & _); [|discriminate].
      apply bind_fuel in H as [H|([[xs r'] p2] & H2 & H)]; [apply IHl in H; auto; lia|].
      apply parse_len in H2.
      apply bind_fuel in H as [H|([args p3] & H3 & H)]; [apply IHa in H; auto; lia|].
      discriminate.
Qed.

Lemma chars_length x : (List.length (chars x) <= String.length x)%nat.
Proof.
  assert (A : forall l, Forall wf_chr l -> (List.length l <= String.length (raw_of l))%nat).
  { induction l as [|c l IH]; cbn; [lia|]. intros F. inv F. specialize (IH H2).
    rewrite sapp_length. destruct H1 as (N & _). destruct (c_raw c); [congruence|cbn; lia]. }
  rewrite <- (chars_raw x) at 2. apply A. apply chars_wf.
Qed.

Lemma init_len x : (plen (init_parser x) <= String.length x)%nat.
Proof.
  unfold plen, init_parser, init_lex. cbn. pose proof (chars_length x).
  destruct (chars x) as [|c l]; [cbn; lia|]. destruct (c_rune c =? BOM); cbn in *; lia.
Qed.

Lemma parse_expr_no_fuel x : parse_expr U x <> OutOfFuel.
Proof.
  unfold parse_expr. intros H. apply bind_fuel in H as [H|([[xs r] p] & _ & H)]; [|discriminate].
  apply parse_fuel_ok in H; auto. pose proof (init_len x). unfold parse_fuel. lia.
Qed.

(* ------------------------------------------------------------------ *)
(** ** Fuel monotonicity. *)

Lemma bind_mono {A B} (r r' : res A) (f f' : A -> res B) :
  (r <> OutOfFuel -> r' = r) ->
  (forall a, r = Ok a -> f a <> OutOfFuel -> f' a = f a) ->
  bind r f <> OutOfFuel -> bind r' f' = bind r f.
Proof.
  intros H1 H2 H. destruct r as [a|p|]; cbn in *.
  - rewrite H1 by discriminate. cbn. apply H2; auto.
  - rewrite H1 by discriminate. reflexivity.
  - congruence.
Qed.

Lemma parse_mono n :
  (forall m tok p, (n <= m)%nat -> parse_node n tok p <> OutOfFuel ->
      parse_node m tok p = parse_node n tok p) /\
  (forall m st p, (n <= m)%nat -> parse_loop n st p <> OutOfFuel ->
      parse_loop m st p = parse_loop n st p) /\
  (forall m p, (n <= m)%nat -> parse_script n p <> OutOfFuel ->
      parse_script m p = parse_script n p) /\
  (forall m sig p, (n <= m)%nat -> parse_args n sig p <> OutOfFuel ->
      parse_args m sig p = parse_args n sig p).
Proof.
  induction n as [|n (IHn & IHl & IHs & IHa)]; [repeat split; intros; cbn in *; congruence|].
  repeat split; intros m; destruct m as [|m]; try (intros; lia).
  - intros tok p L. rewrite !parse_node_S.
    destruct (t_kind tok); try reflexivity.
    + destruct (lookup_macro _) as [[sig|]|]; try reflexivity.
      apply bind_mono; [intros; apply IHa; auto; lia|reflexivity].
    + destruct (String.eqb _ "$").
      { apply bind_mono; [intros; apply IHl; auto; lia|reflexivity]. }
      destruct (String.eqb _ "^").
      { apply bind_mono; [intros; apply IHs; auto; lia|reflexivity]. }
      destruct (String.eqb _ "_").
      { apply bind_mono; [intros; apply IHs; auto; lia|reflexivity]. }
      reflexivity.
    + destruct (p_mode p); [reflexivity|].
      apply bind_mono; [intros; apply IHl; auto; lia|reflexivity].
  - intros st p L. rewrite !parse_loop_S.
    apply bind_mono; [reflexivity|]. intros [ok p1] _.
    destruct ok; [|reflexivity]. destruct (stops st (p_tok p1)); [reflexivity|].
    apply bind_mono; [intros; apply IHn; auto; lia|]. intros [x p2] _.
    apply bind_mono; [intros; apply IHl; auto; lia|reflexivity].
  - intros p L. rewrite !parse_script_S. destruct (p_peek p =? 123).
    + apply bind_mono; [reflexivity|]. intros p1 _.
      apply bind_mono; [intros; apply IHl; auto; lia|reflexivity].
    + apply bind_mono; [reflexivity|]. intros [t p1] _ Hf. apply IHn; auto; lia.
  - intros sig p L. rewrite !parse_args_S. destruct sig as [|c sig]; [reflexivity|].
    destruct (sig_cases c) as [-> | [-> | [N1 N2]]];
      [| |rewrite !ascii_match by assumption; intros; apply IHa; auto; lia].
    + apply bind_mono; [reflexivity|]. intros p1 _.
      apply bind_mono; [intros; apply IHl; auto; lia|]. intros [[xs r] p2] _.
      apply bind_mono; [intros; apply IHa; auto; lia|reflexivity].
    + destruct (p_peek p =? 91); [|intros; apply IHa; auto; lia].
      apply bind_mono; [reflexivity|]. intros p1 _.
      apply bind_mono; [intros; apply IHl; auto; lia|]. intros [[xs r] p2] _.
      apply bind_mono; [intros; apply IHa; auto; lia|reflexivity].
Qed.

End WithLetters.
