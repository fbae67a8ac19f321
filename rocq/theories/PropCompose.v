(** Properties relating several inputs: composition, comments, modes, unknown
    macros. *)
From Coq Require Import ZArith String Ascii List Bool Lia ZifyBool.
From Verif Require Import Utf8 GoScanner Token Lexer Ast Parser Utf8Facts LexFacts LexText Grammar Stream
  ParserFacts GrammarFacts TreeSpec TreeFacts BoundarySpec LexTail LexProps PanicFacts Compose Closed.
Import ListNotations.
Local Open Scope string_scope.
Local Open Scope list_scope.
Local Open Scope Z_scope.

(** ** C12 *)

(** Also when the second part panics: then so does the whole, in the same way. *)
Theorem C12_composition U a b ns :
  Complete U a ns -> Cut U a b ->
  parse_expr U a = Ok ns /\
  parse_expr U (append a b) =
  match parse_expr U b with
  | Ok ms => Ok (ns ++ map (shift (zlen a)) ms)
  | Panic q => Panic q
  | OutOfFuel => OutOfFuel
  end.
Proof. intros C K. split; [now apply complete_parse|now apply parse_app]. Qed.

(** Text without the structural characters is complete. *)
Definition closed_doc U (a : string) : bool :=
  match lex_all U a with
  | (xs, Some (LexOk _ _)) =>
    forallb (fun x => match xk x with
                      | KWord | KNumber | KSpace | KComment | KLparen | KRparen | KLbrack | KRbrack => true
                      | KSymbol => negb (String.eqb (xt x) "$" || String.eqb (xt x) "^" || String.eqb (xt x) "_")
                      | _ => false end) xs
  | _ => false
  end.

Theorem C12_plain_text_complete U a : closed_doc U a = true -> exists ns, Complete U a ns.
Proof.
  unfold closed_doc. destruct (lex_all U a) as [xs [[x s|]|]] eqn:E; try discriminate. intros F.
  apply lex_all_tokens in E.
  assert (Q : exists ns, GSeq known_macro false xs ns).
  { clear E. induction xs as [|y xs IH]; [exists []; constructor|]. cbn [forallb] in F.
    apply andb_true_iff in F as [Fy F]. destruct (IH F) as (ns & Q).
    assert (G : exists n, GNode known_macro false [y] n false).
    { destruct (xk y) eqn:K; try discriminate Fy.
      - eexists. now apply G_comment.
      - eexists. now apply G_space.
      - eexists. now apply G_word.
      - eexists. now apply G_number.
      - eexists. apply G_symbol; [assumption|..]; intros X; rewrite X in Fy; discriminate Fy.
      - eexists. apply G_delim. auto.
      - eexists. apply G_delim. auto.
      - eexists. apply G_delim. auto.
      - eexists. apply G_delim. auto. }
    destruct G as (n & G). exists (keep n ns). change (y :: xs) with ([y] ++ xs). now constructor. }
  destruct Q as (ns & Q). exists ns, xs. auto.
Qed.

(** A concrete case: both parts have macros, groups and math. *)
Example C12_ex :
  let a := "\sqrt[n]{x} $y^{2}$" in let b := " z\frac{1}{2" in
  Complete ascii_only a
    [NMacro (Some (0, "\sqrt")) [NOptArg 5 [NWord 6 "n"] 7; NArg 8 [NWord 9 "x"] 10]; NSym 11 " ";
     NMath "$" 12 [NWord 13 "y"; NSup 14 (NList [NLit 16 "2"])] 18] /\
  Cut ascii_only a b /\
  parse_expr ascii_only b = Ok [NSym 0 " "; NWord 1 "z"; NMacro (Some (2, "\frac")) [NArg 7 [NLit 8 "1"] 9; NArg 10 [NLit 11 "2"] 0]].
Proof.
  cbv zeta. split; [|split].
  - apply complete_nodes_sound. vm_compute. reflexivity.
  - apply cut_ok_sound. vm_compute. reflexivity.
  - vm_compute. reflexivity.
Qed.

(** Why the condition is needed: a word may continue, a comment may be open. *)
Example C12_needed :
  parse_expr ascii_only "ab" = Ok [NWord 0 "ab"] /\
  parse_expr ascii_only "%c" = Ok [] /\ parse_expr ascii_only "%cx" = Ok [].
Proof. repeat split; vm_compute; reflexivity. Qed.

(** ** C10 *)

(** After a complete prefix, whatever math it contains, the rest is parsed in
    text mode: a space there is a node of its own. *)
Theorem C10_text_after_complete U a ns b ms :
  Complete U a ns -> Cut U a (String " " b) -> parse_expr U (String " " b) = Ok ms ->
  parse_expr U (append a (String " " b)) = Ok (ns ++ map (shift (zlen a)) ms) /\
  exists ms', ms = NSym 0 " " :: ms'.
Proof.
  intros C K P. split; [rewrite (parse_app U a _ ns C K), P; reflexivity|].
  apply parse_expr_sound in P as (xs & (s & s1 & L & E) & G).
  assert (I : init_lex (String " " b) = mk_ls 0 (mk_chr 32 (String " " "") :: chars b)).
  { unfold init_lex. rewrite (chars_ascii " " b) by (vm_compute; reflexivity). reflexivity. }
  rewrite I in L.
  assert (L1 : lex1 U (mk_ls 0 (mk_chr 32 (String " " "") :: chars b)) =
     LexOk (mk_lx (mk_tok KSpace 0 " ") [] [mk_chr 32 (String " " "")] (peek (chars b))) (mk_ls 1 (chars b))) by reflexivity.
  inversion L; subst; [destruct E as (y & E & Ky); rewrite L1 in E; injection E as <- _; discriminate Ky|].
  rewrite L1 in H. injection H as <- <-. unfold GDoc in G. inversion G; subst.
  match goal with HN : GNode _ _ _ n _ |- _ => inversion HN; subst end;
    repeat match goal with HX : xk _ = _ |- _ => discriminate HX end.
  - cbn [keep]. eauto.
  - match goal with HX : _ \/ _ |- _ => destruct HX as [X|[X|[X|X]]]; discriminate X end.
Qed.

(** The parser's mode after any node, list, operand or argument list is the mode
    before it, in every state and whatever the outcome of the rest. *)
Theorem C10_mode_restored U n :
  (forall tok p nd p', parse_node U n tok p = Ok (nd, p') -> p_mode p' = p_mode p) /\
  (forall st p r p', parse_loop U n st p = Ok (r, p') -> p_mode p' = p_mode p) /\
  (forall p nd p', parse_script U n p = Ok (nd, p') -> p_mode p' = p_mode p) /\
  (forall sig p args p', parse_args U n sig p = Ok (args, p') -> p_mode p' = p_mode p).
Proof.
  assert (Sn : forall p ok p1, snext U p = Ok (ok, p1) -> p_mode p1 = p_mode p).
  { intros p ok p1 H. now apply snext_len in H as (_ & _ & M). }
  assert (Pn : forall p t p1, pnext U p = Ok (t, p1) -> p_mode p1 = p_mode p).
  { intros p t p1 H. now apply pnext_len in H as (_ & _ & M). }
  assert (Ex : forall v p p1, expect U v p = Ok p1 -> p_mode p1 = p_mode p).
  { intros v p p1 H. unfold expect in H. apply bind_ok in H as ((t & p2) & H & E).
    destruct (String.eqb _ _); [|discriminate]. injection E as <-. eauto. }
  induction n as [|n (IHn & IHl & IHs & IHa)]; [repeat split; intros; discriminate|].
  repeat split.
  - intros tok p nd p'. rewrite parse_node_S. destruct (t_kind tok).
    all: try (intros E; injection E as _ <-; reflexivity).
    all: try discriminate.
    + destruct (lookup_macro (t_text tok)) as [[sig|]|]; try discriminate.
      intros H. apply bind_ok in H as ((args & p1) & H & E). injection E as _ <-. eauto.
    + destruct (p_mode p) eqn:M; intros E; injection E as _ <-; assumption.
    + destruct (String.eqb _ "$").
      { intros H. apply bind_ok in H as (((ns & r) & p1) & H & E). injection E as _ <-. reflexivity. }
      destruct (String.eqb _ "^").
      { intros H. apply bind_ok in H as ((x & p1) & H & E). injection E as _ <-. eauto. }
      destruct (String.eqb _ "_").
      { intros H. apply bind_ok in H as ((x & p1) & H & E). injection E as _ <-. eauto. }
      intros E; injection E as _ <-; reflexivity.
    + destruct (p_mode p) eqn:M; [discriminate|].
      intros H. apply bind_ok in H as (((ns & r) & p1) & H & E). injection E as _ <-.
      rewrite <- M. eauto.
  - intros st p r p'. rewrite parse_loop_S. intros H.
    apply bind_ok in H as ((ok & p1) & H1 & H). apply Sn in H1. destruct ok.
    + destruct (stops st (p_tok p1)); [injection H as _ <-; assumption|].
      apply bind_ok in H as ((x & p2) & H2 & H). apply bind_ok in H as (((ns & rr) & p3) & H3 & H).
      injection H as _ <-. apply IHn in H2. apply IHl in H3. congruence.
    + injection H as _ <-. assumption.
  - intros p nd p'. rewrite parse_script_S. destruct (p_peek p =? 123); intros H.
    + apply bind_ok in H as (p1 & H1 & H). apply Ex in H1.
      apply bind_ok in H as (((ns & rr) & p3) & H3 & H). injection H as _ <-. apply IHl in H3. congruence.
    + apply bind_ok in H as ((t & p1) & H1 & H). apply Pn in H1. apply IHn in H. congruence.
  - intros sig p args p'. rewrite parse_args_S. destruct sig as [|c sig]; [intros E; injection E as _ <-; reflexivity|].
    destruct (sig_cases c) as [-> | [-> | [N1 N2]]].
    + intros H. apply bind_ok in H as (p1 & H1 & H). apply Ex in H1.
      apply bind_ok in H as (((ns & rr) & p3) & H3 & H). apply IHl in H3.
      apply bind_ok in H as ((ar & p4) & H4 & H). injection H as _ <-. apply IHa in H4. congruence.
    + destruct (p_peek p =? 91); [|apply IHa].
      intros H. apply bind_ok in H as (p1 & H1 & H). apply Ex in H1.
      apply bind_ok in H as (((ns & rr) & p3) & H3 & H). apply IHl in H3.
      apply bind_ok in H as ((ar & p4) & H4 & H). injection H as _ <-. apply IHa in H4. congruence.
    + rewrite ascii_match by assumption. apply IHa.
Qed.

Example C10_ex :
  parse_expr ascii_only "$x y$ z" = Ok [NMath "$" 0 [NWord 1 "x"; NWord 3 "y"] 4; NSym 5 " "; NWord 6 "z"].
Proof. vm_compute. reflexivity. Qed.

(** ** C11 *)

(** No newline and no double quote. *)
Definition plain_comment (c : string) : Prop :=
  forall a, In a (list_ascii_of_string c) -> byte a <> 10 /\ byte a <> 34.

Definition comment (c : string) : string := append "%" (append c (String "010" "")).

Lemma chars_avoid s r : r < 128 -> (forall a, In a (list_ascii_of_string s) -> byte a <> r) ->
  Forall (fun c => c_rune c <> r) (chars s).
Proof.
  intros R. remember (String.length s) as n eqn:En. revert s En.
  induction n as [n IH] using (well_founded_induction lt_wf). intros s En H.
  destruct s as [|a s]; [constructor|].
  assert (Ne : String a s <> "") by discriminate. pose proof (chars_step _ Ne) as E.
  pose proof (chars_wf (String a s)) as W. pose proof (decode_rune_width _ Ne) as [D1 D2].
  destruct (decode_rune (String a s)) as [r0 w] eqn:Ed. cbn [fst snd] in *.
  rewrite E in W |- *. apply Forall_inv in W. destruct W as (W1 & W2 & W3 & _). cbn [c_rune c_raw] in *.
  constructor.
  - cbn [c_rune]. intros ->. specialize (W3 R). destruct w; [lia|]. cbn in W3. injection W3 as A _.
    apply (H a); [now left|]. rewrite A. apply byte_zascii. lia.
  - eapply IH; [|reflexivity|].
    + rewrite sdrop_length. lia.
    + intros b I. apply H. clear -I. revert I. generalize w as k, (String a s) as t.
      induction k as [|k IH]; intros t I; [assumption|]. destruct t; [destruct I|]. right. now apply IH.
Qed.

Definition pct : chr := mk_chr 37 "%".
Definition nl : chr := mk_chr 10 (String "010" "").

Lemma chars_comment c : chars (comment c) = pct :: chars c ++ [nl].
Proof.
  unfold comment. cbn [append]. rewrite chars_ascii by (vm_compute; reflexivity).
  rewrite chars_app by (cbn; left; reflexivity). reflexivity.
Qed.

Lemma lex1_comment U o c rest : plain_comment c ->
  exists x, lex1 U (mk_ls o (pct :: chars c ++ nl :: rest)) = LexOk x (mk_ls (o + zlen c + 2) rest) /\
    xk x = KComment /\ x_raw x = pct :: chars c ++ [nl] /\ xp x = o.
Proof.
  intros P.
  assert (F : Forall (fun c => c_rune c <> 10 /\ c_rune c <> 34) (chars c)).
  { pose proof (chars_avoid c 10 ltac:(lia) (fun a I => proj1 (P a I))) as A.
    pose proof (chars_avoid c 34 ltac:(lia) (fun a I => proj2 (P a I))) as B.
    rewrite Forall_forall in *. auto. }
  unfold lex1. cbn [l_rest l_off].
  assert (S1 : gscan U true (pct :: chars c ++ nl :: rest) = (GRune 37, [], [pct], chars c ++ nl :: rest)) by reflexivity.
  rewrite S1. change (37 =? 92) with false. change (37 =? 32) with false. change (37 =? 37) with true. cbv iota.
  rewrite (scan_comment_line U _ (chars c) nl rest eq_refl F) by lia.
  assert (L : clen ([pct] ++ chars c ++ [nl]) = zlen c + 2).
  { rewrite !clen_app. replace (clen [pct]) with 1 by reflexivity. replace (clen [nl]) with 1 by reflexivity.
    unfold clen. rewrite chars_raw. unfold zlen. lia. }
  eexists (mk_lx (mk_tok KComment o _) [] (pct :: chars c ++ [nl]) (peek rest)).
  split; [|split; [reflexivity|split; reflexivity]].
  rewrite L. change (clen []) with 0. cbn [app]. rewrite Z.add_0_r, Z.add_assoc. reflexivity.
Qed.

Lemma GSeq_app m xs ns ys ms : GSeq known_macro m xs ns -> GSeq known_macro m ys ms ->
  GSeq known_macro m (xs ++ ys) (ns ++ ms).
Proof.
  induction 1 as [|xs n zs ns G Q IH]; intros H; [exact H|]. rewrite <- app_assoc, keep_app. constructor; auto.
Qed.

(** A complete text followed by a comment is complete and has the same nodes. *)
Theorem C11_comment_adds_nothing U a c ns :
  Complete U a ns -> Cut U a "%" -> plain_comment c ->
  Complete U (append a (comment c)) ns /\
  forall b, first_byte_ok b -> fst (decode_rune b) <> BOM -> Cut U (append a (comment c)) b.
Proof.
  intros (xs & T & Q) (_ & _ & C) P. specialize (C xs T ltac:(discriminate)).
  destruct T as (s' & s1 & L & E). destruct (eof_ws U _ _ E) as (Ws & Off).
  assert (Fb : first_byte_ok (comment c)) by (cbn; left; reflexivity).
  assert (Bo : fst (decode_rune (comment c)) <> BOM) by (vm_compute; discriminate).
  pose proof (init_app a (comment c) Fb Bo) as Ia. rewrite chars_comment in Ia.
  set (t := pct :: chars c ++ [nl]) in *.
  assert (L' : Lexes U (init_lex (append a (comment c))) (setpk (peek (l_rest s1 ++ t)) xs)
                 (mk_ls (l_off s1) (l_rest s1 ++ t))).
  { rewrite Ia. apply Lexes_tail; [assumption|exact (init_lex_wf a)|]. intros Er. unfold t. cbn [c_rune pct].
    destruct (rev xs) as [|x xr] eqn:Rx; [exact I|]. destruct C as [C|C]; [|exact C].
    exfalso. unfold ends_ws in C. rewrite Rx in C.
    destruct (lexes_end U _ _ _ L) as [Le _]. specialize (Le x xr Rx).
    pose proof (lexes_total_len U a xs s1 L) as Len. rewrite Er in Len. unfold clen at 1 in Len. cbn in Len. lia. }
  destruct (lex1_comment U (l_off s1 + clen (l_rest s1)) c [] P) as (x & Lx & Kx & Rx & Px).
  assert (Lx' : lex1 U (mk_ls (l_off s1) (l_rest s1 ++ t)) =
    LexOk (add_skip (l_rest s1) x) (mk_ls (l_off s1 + clen (l_rest s1) + zlen c + 2) [])).
  { rewrite (lex1_ws U _ _ _ Ws). unfold t. rewrite Lx. reflexivity. }
  assert (T : Tokens U (append a (comment c)) (setpk (peek (l_rest s1 ++ t)) xs ++ [add_skip (l_rest s1) x])).
  { exists (mk_ls (l_off s1 + clen (l_rest s1) + zlen c + 2 + 0 + 0) []), (mk_ls (l_off s1 + clen (l_rest s1) + zlen c + 2) []).
    split.
    - eapply Lexes_app; [exact L'|]. econstructor; [exact Lx'|unfold xk in *; cbn; congruence|constructor].
    - eexists. split; [reflexivity|reflexivity]. }
  split.
  - exists (setpk (peek (l_rest s1 ++ t)) xs ++ [add_skip (l_rest s1) x]). split; [exact T|].
    rewrite <- (app_nil_r ns). apply GSeq_app; [now apply GSeq_setpk|].
    rewrite <- (app_nil_r [_]). apply (Q_cons known_macro false [_] NNil); [apply G_comment; exact Kx|constructor].
  - intros b Fbb Bb. split; [exact Fbb|]. split; [exact Bb|]. intros ys Ty _. right.
    rewrite (Tokens_det _ _ _ _ Ty T), rev_app_distr. cbn [rev app].
    unfold tail_ok. replace (xk (add_skip (l_rest s1) x)) with KComment by (symmetry; exact Kx).
    cbn [add_skip x_raw]. rewrite Rx. cbn [rev]. rewrite rev_app_distr. cbn [rev app].
    apply andb_true_iff. split; [reflexivity|]. rewrite forallb_app. apply andb_true_iff. split; [|reflexivity].
    apply forallb_forall. intros y I. apply in_rev in I.
    pose proof (chars_avoid c 10 ltac:(lia) (fun a I => proj1 (P a I))) as A.
    pose proof (chars_avoid c 34 ltac:(lia) (fun a I => proj2 (P a I))) as B.
    rewrite Forall_forall in A, B. specialize (A y I). specialize (B y I). lia.
Qed.

(** Inserting a comment at a boundary only moves what follows. *)
Theorem C11_insert_comment U a b c ns :
  Complete U a ns -> Cut U a "%" -> Cut U a b -> plain_comment c ->
  match parse_expr U b with
  | Ok ms =>
    parse_expr U (append a b) = Ok (ns ++ map (shift (zlen a)) ms) /\
    parse_expr U (append (append a (comment c)) b) = Ok (ns ++ map (shift (zlen a + zlen c + 2)) ms)
  | r => parse_expr U (append a b) = r /\ parse_expr U (append (append a (comment c)) b) = r
  end.
Proof.
  intros Ca K1 K2 P. pose proof (parse_app U a b ns Ca K2) as E1.
  destruct (C11_comment_adds_nothing U a c ns Ca K1 P) as [Cc Kc].
  pose proof (parse_app U _ b ns Cc (Kc b (proj1 K2) (proj1 (proj2 K2)))) as E2.
  assert (Lc : zlen (append a (comment c)) = zlen a + zlen c + 2).
  { unfold comment. rewrite !zlen_app. change (zlen "%") with 1.
    change (zlen (String "010" "")) with 1. lia. }
  rewrite Lc in E2. destruct (parse_expr U b); auto.
Qed.

Example C11_ex :
  Complete ascii_only "$x$ a" [NMath "$" 0 [NWord 1 "x"] 2; NSym 3 " "; NWord 4 "a"] /\
  Cut ascii_only "$x$ a" "%" /\ Cut ascii_only "$x$ a" "+b" /\ plain_comment "{ $ \x" /\
  parse_expr ascii_only (append (append "$x$ a" (comment "{ $ \x")) "+b") =
    Ok [NMath "$" 0 [NWord 1 "x"] 2; NSym 3 " "; NWord 4 "a"; NSym 13 "+"; NWord 14 "b"].
Proof.
  repeat split.
  - apply complete_nodes_sound. vm_compute. reflexivity.
  - left. reflexivity.
  - vm_compute. discriminate.
  - apply (cut_ok_sound ascii_only "$x$ a" "%" eq_refl).
  - left. reflexivity.
  - vm_compute. discriminate.
  - apply (cut_ok_sound ascii_only "$x$ a" "+b" eq_refl).
  - cbn in H. intuition (subst; discriminate).
  - cbn in H. intuition (subst; discriminate).
Qed.

(** With a double quote in the comment the next line disappears as well. *)
Theorem C11_quote_swallows_next_line :
  let c := "say ""hi" in
  parse_expr ascii_only (append "a" (append (comment "say hi") (append "b" (String "010" "c")))) =
    Ok [NWord 0 "a"; NWord 9 "b"; NWord 11 "c"] /\
  parse_expr ascii_only (append "a" (append (comment c) (append "b" (String "010" "c")))) =
    Ok [NWord 0 "a"; NWord 12 "c"].
Proof. split; vm_compute; reflexivity. Qed.

(** ** C08 *)

(** Every macro token of an accepted input is a known macro. *)
Lemma grammar_macros :
  (forall m xs nd o, GNode known_macro m xs nd o -> Forall (fun l => xk l = KMacro -> known_macro (xt l) <> None) xs) /\
  (forall m c xs ns r o, GLoop known_macro m c xs ns r o -> Forall (fun l => xk l = KMacro -> known_macro (xt l) <> None) xs) /\
  (forall m pk xs nd o, GScript known_macro m pk xs nd o -> Forall (fun l => xk l = KMacro -> known_macro (xt l) <> None) xs) /\
  (forall m pk sg xs args o, GArgs known_macro m pk sg xs args o -> Forall (fun l => xk l = KMacro -> known_macro (xt l) <> None) xs).
Proof.
  apply (G_mutind known_macro); intros; subst; repeat (constructor; try assumption); try (intros K; congruence).
  all: try (intros K; exfalso; intuition congruence).
  all: try (apply Forall_app; split; assumption).
  - intros K. destruct cl; unfold closes in H; intuition congruence.
  - match goal with HF : Forall _ (x :: xs) |- _ => exact (Forall_inv HF) end.
  - match goal with HF : Forall _ (x :: xs) |- _ => apply Forall_inv_tail in HF; apply Forall_app; auto end.
  - match goal with HF : Forall _ (x :: xs) |- _ => exact (Forall_inv HF) end.
  - match goal with HF : Forall _ (x :: xs) |- _ => exact (Forall_inv_tail HF) end.
  - assumption.
Qed.

Theorem C08_unknown_never_accepted U x xs l :
  Tokens U x xs -> In l xs -> xk l = KMacro -> known_macro (xt l) = None ->
  forall ns, parse_expr U x <> Ok ns.
Proof.
  intros T I K N ns P. apply parse_expr_sound in P as (ys & T' & G).
  rewrite (Tokens_det _ _ _ _ T' T) in G. apply (proj1 (proj2 grammar_macros)) in G.
  rewrite Forall_forall in G. now apply (G l I K).
Qed.

(** At top level the panic names the macro. *)
Lemma lex1_macro U c r nm rest : is_letter U r = true -> Forall (fun y => is_letter U (c_rune y) = true) nm ->
  match rest with [] => True | y :: _ => is_letter U (c_rune y) = false end ->
  wf_chr (mk_chr r c) ->
  exists s, lex1 U (mk_ls 0 (mk_chr 92 "\" :: mk_chr r c :: nm ++ rest)) =
    LexOk (mk_lx (mk_tok KMacro 0 (append "\" (append c (raw_of nm)))) [] (mk_chr 92 "\" :: mk_chr r c :: nm) (peek rest)) s.
Proof.
  intros Lr Ln Lrest W. unfold lex1. cbn [l_rest l_off].
  assert (S1 : gscan U true (mk_chr 92 "\" :: mk_chr r c :: nm ++ rest) =
     (GRune 92, [], [mk_chr 92 "\"], mk_chr r c :: nm ++ rest)) by reflexivity.
  rewrite S1. change (92 =? 92) with true. cbv iota. cbn [peek c_rune].
  assert (R32 : r =? 32 = false).
  { destruct (Z.eqb_spec r 32); [subst; discriminate Lr|reflexivity]. }
  rewrite R32.
  assert (Rws : is_ws r = false).
  { unfold is_ws. destruct (Z.eqb_spec r 9), (Z.eqb_spec r 10), (Z.eqb_spec r 13); subst; try discriminate Lr; reflexivity. }
  assert (S2 : gscan U true (mk_chr r c :: nm ++ rest) = (GIdent, [], mk_chr r c :: nm, rest)).
  { unfold gscan. cbn [span c_rune]. rewrite Rws. cbv iota beta. cbn [c_rune]. rewrite Lr. rewrite (span_all _ _ nm rest eq_refl Ln Lrest). reflexivity. }
  rewrite S2. eexists. reflexivity.
Qed.

(** [nm] is a non-empty sequence of letters. *)
Definition letters U (nm : string) : Prop :=
  nm <> "" /\ Forall (fun c => is_letter U (c_rune c) = true) (chars nm).

Theorem C08_unknown_at_top_level U a ns nm b :
  Complete U a ns -> Cut U a (append "\" (append nm b)) ->
  letters U nm -> first_byte_ok b -> (b = "" \/ is_letter U (fst (decode_rune b)) = false) ->
  known_macro (append "\" nm) = None ->
  parse_expr U (append a (append "\" (append nm b))) =
  Panic (if String.eqb nm "genfrac" then PNilMacro else PUnknownMacro (append "\" nm)).
Proof.
  intros C K (Ne & Le) F B N. rewrite (parse_app U a _ ns C K).
  assert (E : parse_expr U (append "\" (append nm b)) =
     Panic (if String.eqb nm "genfrac" then PNilMacro else PUnknownMacro (append "\" nm))); [|now rewrite E].
  assert (I : init_lex (append "\" (append nm b)) = mk_ls 0 (mk_chr 92 "\" :: chars nm ++ chars b)).
  { unfold init_lex. cbn [append]. rewrite chars_ascii by (vm_compute; reflexivity). rewrite chars_app by exact F. reflexivity. }
  destruct (chars nm) as [|[r c] cs] eqn:Ec.
  { exfalso. apply Ne. rewrite <- (chars_raw nm), Ec. reflexivity. }
  assert (En : nm = append c (raw_of cs)) by (rewrite <- (chars_raw nm), Ec; reflexivity).
  inversion Le as [|? ? Lr Ln]; subst. cbn [c_rune] in Lr.
  pose proof (chars_wf (append c (raw_of cs))) as W. rewrite Ec in W. inversion W as [|? ? Wc _]; subst.
  destruct (lex1_macro U c r cs (chars b) Lr Ln) as (s & Lx).
  { destruct b as [|b0 b]; [exact Logic.I|]. destruct (first_rune_chars (String b0 b)) as (l & ->); [discriminate|].
    destruct B as [B|B]; [discriminate|exact B]. }
  { exact Wc. }
  unfold parse_expr, parse_fuel. 
  replace (8 * String.length (append "\" (append (append c (raw_of cs)) b)) + 8)%nat
    with (S (S (8 * String.length (append "\" (append (append c (raw_of cs)) b)) + 6)))%nat by lia.
  rewrite parse_loop_S. unfold snext at 1. cbn [p_lex init_parser]. rewrite I. cbn [app]. rewrite Lx.
  cbn [x_tok t_kind kind_beq negb bind stops p_tok p_mode]. 
  rewrite parse_node_S. cbn [x_tok t_kind t_text].
  unfold known_macro in N. cbn [append] in N |- *.
  destruct (lookup_macro (String "\" (append c (raw_of cs)))) as [[sig|]|] eqn:Lk; [discriminate| |].
  - apply PanicFacts.nil_macro_name in Lk. injection Lk as Lk. rewrite Lk. reflexivity.
  - destruct (String.eqb_spec (append c (raw_of cs)) "genfrac") as [X|X]; [|reflexivity].
    rewrite X in Lk. vm_compute in Lk. discriminate Lk.
Qed.

Example C08_ex :
  known_macro "\foo" = None /\ letters ascii_only "foo" /\ known_macro "\genfrac" = None /\
  parse_expr ascii_only "a $b$ \foo{x}" = Panic (PUnknownMacro "\foo") /\
  parse_expr ascii_only "a \genfrac{x}" = Panic PNilMacro /\
  parse_expr ascii_only "a \sqrt{$\foo$}" = Panic (PUnknownMacro "\foo").
Proof.
  repeat split; try (vm_compute; reflexivity); try discriminate.
  vm_compute. repeat constructor.
Qed.

Print Assumptions C08_unknown_never_accepted.
Print Assumptions C08_unknown_at_top_level.
Print Assumptions C10_text_after_complete.
Print Assumptions C10_mode_restored.
Print Assumptions C11_comment_adds_nothing.
Print Assumptions C11_insert_comment.
Print Assumptions C11_quote_swallows_next_line.
Print Assumptions C12_composition.
Print Assumptions C12_plain_text_complete.
