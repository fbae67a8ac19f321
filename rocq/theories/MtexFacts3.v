(** Parsed trees as input of mtex. *)
From Coq Require Import ZArith String Ascii List Bool Lia ZifyBool.
From Verif Require Import Utf8 Utf8Facts GoScanner Token Lexer LexFacts LexText Ast MacroTable SymTable SetTable MtexTable Parser
  Grammar Stream ParserFacts GrammarFacts TreeSpec TreeFacts TreeFacts2 TreeFacts3 PropParse Symbols PropSymbols
  Arith Box Ship ShipSpec ShipFacts ShipFacts2 Mtex MtexSpec MtexFacts MtexFacts2.
Import ListNotations.
Local Open Scope string_scope.
Local Open Scope list_scope.
Local Open Scope Z_scope.

Ltac inv H := inversion H; subst; clear H.

(** ** Number tokens *)
Definition number_rune (r : Z) : bool :=
  is_hex r || existsb (Z.eqb r) [46; 43; 45; 95; 120; 88; 111; 79; 112; 80].
Notation numbers := (Forall (fun c => number_rune (c_rune c) = true)).

Lemma span_numbers hex l a b : span (is_dig hex) l = (a, b) -> numbers a.
Proof.
  intros H. apply span_spec in H as (_ & F & _). eapply Forall_impl; [|exact F]. cbn. intros c.
  unfold is_dig, number_rune, is_hex, is_decimal, in_range. cbn [existsb]. destruct hex; lia.
Qed.
Lemma exponent_numbers l f a b : scan_exponent l = (f, a, b) -> numbers a.
Proof.
  unfold scan_exponent. destruct l as [|c l1]; [intros H; inv H; constructor|].
  destruct ((c_rune c =? 101) || (c_rune c =? 69) || (c_rune c =? 112) || (c_rune c =? 80)) eqn:E;
    [|intros H; inv H; constructor].
  assert (N : number_rune (c_rune c) = true)
    by (unfold number_rune, is_hex, is_decimal, in_range; cbn [existsb]; lia).
  destruct l1 as [|d l2].
  - cbn. intros H; inv H. repeat constructor; assumption.
  - destruct ((c_rune d =? 43) || (c_rune d =? 45)) eqn:E2.
    + destruct (span (is_dig false) l2) as [ds l3] eqn:S. intros H; inv H. cbn [app].
      constructor; [assumption|]. constructor; [unfold number_rune; cbn [existsb]; lia|]. eapply span_numbers; eassumption.
    + destruct (span (is_dig false) (d :: l2)) as [ds l3] eqn:S. intros H; inv H. cbn [app].
      constructor; [assumption|]. eapply span_numbers; eassumption.
Qed.
Lemma frac_numbers hex l a b : scan_frac hex l = (a, b) -> numbers a.
Proof.
  unfold scan_frac. destruct (span (is_dig hex) l) as [ds l1] eqn:S.
  destruct (scan_exponent l1) as [[f e] l2] eqn:E. intros H; inv H.
  apply Forall_app. split; [eapply span_numbers|eapply exponent_numbers]; eassumption.
Qed.

Lemma number_numbers l k a b : scan_number l = (k, a, b) -> numbers a.
Proof.
  unfold scan_number.
  set (P := match l with
    | [] => ([], false, [])
    | z :: l1 =>
        if c_rune z =? 48
        then match l1 with
             | [] => ([z], false, l1)
             | c :: l2 =>
                 if (c_rune c =? 120) || (c_rune c =? 88) then ([z; c], true, l2)
                 else if (c_rune c =? 111) || (c_rune c =? 79) || (c_rune c =? 98) || (c_rune c =? 66)
                      then ([z; c], false, l2) else ([z], false, l1)
             end
        else ([], false, l)
    end).
  assert (NP : numbers (fst (fst P))).
  { subst P. destruct l as [|z l1]; [constructor|]. destruct (c_rune z =? 48) eqn:E0; [|constructor].
    assert (Nz : number_rune (c_rune z) = true) by (unfold number_rune, is_hex, is_decimal, in_range; lia).
    destruct l1 as [|c l2]; [repeat constructor; assumption|].
    destruct ((c_rune c =? 120) || (c_rune c =? 88)) eqn:E1.
    { constructor; [assumption|]. constructor; [|constructor]. unfold number_rune; cbn [existsb]; lia. }
    destruct ((c_rune c =? 111) || (c_rune c =? 79) || (c_rune c =? 98) || (c_rune c =? 66)) eqn:E2.
    { constructor; [assumption|]. constructor; [|constructor].
      unfold number_rune, is_hex, is_decimal, in_range; cbn [existsb]; lia. }
    repeat constructor; assumption. }
  destruct P as [[pre hex] l1]. cbn [fst] in NP.
  destruct (span (is_dig hex) l1) as [ds l2] eqn:S. apply span_numbers in S.
  destruct l2 as [|d l3].
  - intros H; inv H. apply Forall_app; auto.
  - destruct (c_rune d =? 46) eqn:E.
    + destruct (scan_frac hex l3) as [f l4] eqn:F. intros H; inv H.
      apply Forall_app; split; [assumption|]. apply Forall_app; split; [assumption|].
      constructor; [unfold number_rune; cbn [existsb]; lia|]. eapply frac_numbers; eassumption.
    + destruct (scan_exponent (d :: l3)) as [[f e] l4] eqn:F. intros H; inv H.
      apply Forall_app; split; [assumption|]. apply Forall_app; split; [assumption|].
      eapply exponent_numbers; eassumption.
Qed.

Lemma gscan_numbers U ws l k sk a b : gscan U ws l = (k, sk, a, b) -> k = GInt \/ k = GFloat -> numbers a.
Proof.
  unfold GoScanner.gscan. destruct (if ws then span is_ws l else ([], l)) as [sk0 l0].
  destruct l0 as [|c l']; [intros H; inv H; now intros [|]|].
  destruct (is_letter U (c_rune c)).
  { destruct (span (is_letter U) l') as [a' b']. intros H; inv H. now intros [|]. }
  destruct (is_decimal (c_rune c)) eqn:ED.
  { destruct (scan_number (c :: l')) as [[k' a'] b'] eqn:S. intros H; inv H. intros _. eapply number_numbers; eassumption. }
  destruct (c_rune c =? 34).
  { destruct (scan_string false l') as [a' b']. intros H; inv H. now intros [|]. }
  destruct (c_rune c =? 46) eqn:E46.
  { destruct l' as [|d l2].
    - intros H; inv H. now intros [|].
    - destruct (is_decimal (c_rune d)).
      + destruct (scan_frac false (d :: l2)) as [a' b'] eqn:F. intros H; inv H. intros _.
        constructor; [unfold number_rune; cbn [existsb]; lia|]. eapply frac_numbers; eassumption.
      + intros H; inv H. now intros [|]. }
  intros H; inv H. now intros [|].
Qed.

Lemma number_ascii r : number_rune r = true -> 0 <= r < 128 /\ r <> 44 /\ r <> 59 /\ r <> 33.
Proof. unfold number_rune, is_hex, is_decimal, in_range. cbn [existsb]. lia. Qed.

Lemma number_token U s x s' : wf_ls s -> lex1 U s = LexOk x s' -> xk x = KNumber ->
  exists a, xt x = raw_of a /\ numbers a /\ Forall wf_chr a.
Proof.
  unfold wf_ls, Lexer.lex1, xk, xt. intros W.
  destruct (gscan U true (l_rest s)) as [[[k sk] a] b] eqn:G.
  pose proof (gscan_numbers _ _ _ _ _ _ _ G) as K.
  apply gscan_split in G as (E & _ & _ & _ & K2). rewrite E in W.
  apply Forall_app in W as [_ W]. apply Forall_app in W as [W _].
  destruct k; cbn [x_tok].
  1,2,5: intros H; inv H; discriminate.
  1,2: intros H; inv H; intros _; exists a; cbn [t_text]; auto.
  destruct K2 as (c & -> & <-). 
  destruct (c_rune c =? 92).
  { destruct (gscan U true b) as [[[k2 sk2] a2] b2]. destruct (peek b =? 32); intros H; inv H; discriminate. }
  destruct (c_rune c =? 32); [intros H; inv H; discriminate|].
  destruct (c_rune c =? 37).
  { destruct (scan_comment U (S (List.length b)) b) as [[t a2] b2]. intros H; inv H; discriminate. }
  destruct (is_symbol_rune (c_rune c)); [intros H; inv H; discriminate|].
  destruct (bracket_kind (c_rune c)) as [k|] eqn:B; [|discriminate].
  intros H; inv H. cbn [x_tok t_kind]. intros ->. apply bracket_kind_inv in B. intuition discriminate.
Qed.

Lemma rune_strings_ascii a : Forall wf_chr a -> Forall (fun c => 0 <= c_rune c < 128) a ->
  rune_strings (raw_of a) = map (fun c => String (zascii (c_rune c)) "") a.
Proof.
  induction 1 as [|c a Hc _ IH]; intros F; [reflexivity|]. inv F. specialize (IH H2).
  unfold rune_strings in *. cbn [raw_of map]. destruct Hc as (_ & _ & R & _). rewrite R by lia. cbn [append].
  rewrite chars_ascii by (rewrite byte_zascii; lia). cbn [map c_rune]. rewrite IH. f_equal.
  rewrite byte_zascii by lia. unfold encode_rune, valid_rune, in_range, encode_valid.
  replace ((0 <=? c_rune c) && (c_rune c <=? 55295) || (57344 <=? c_rune c) && (c_rune c <=? 1114111)) with true by lia.
  replace (c_rune c <? 128) with true by lia. reflexivity.
Qed.

Lemma number_text_numeric U s x s' : wf_ls s -> lex1 U s = LexOk x s' -> xk x = KNumber -> numeric_text (xt x).
Proof.
  intros W L K. destruct (number_token U s x s' W L K) as (a & -> & N & Wa).
  intros y. rewrite rune_strings_ascii; [|assumption|].
  2:{ eapply Forall_impl; [|exact N]. intros c Hc. now apply number_ascii in Hc. }
  rewrite in_map_iff. intros (c & <- & I). rewrite Forall_forall in N. apply N, number_ascii in I as (R & N1 & N2 & N3).
  assert (B : byte (zascii (c_rune c)) = c_rune c) by (apply byte_zascii; lia).
  cbn [In]. intros [H|[H|[H|[H|[H|[]]]]]]; try discriminate H; injection H as H; rewrite <- H in B;
    revert B R N1 N2 N3; generalize (c_rune c) as r; intros r B; vm_compute in B; subst r; lia.
Qed.

(** ** List elements *)
Definition item (n : node) : Prop := match n with NNil | NArg _ _ _ | NOptArg _ _ _ | NIdent _ _ => False | _ => True end.
Definition items_ok (n : node) : Prop :=
  match n with
  | NList l | NArg _ l _ | NOptArg _ l _ | NMath _ _ l _ => Forall item l
  | _ => True
  end.
Definition sym_ok (xs : list lexeme) (n : node) : Prop :=
  match n with
  | NSym p t => exists l, In l xs /\ xt l = t /\
      ((xk l = KSymbol /\ t <> "$" /\ t <> "^" /\ t <> "_") \/
       xk l = KLparen \/ xk l = KRparen \/ xk l = KLbrack \/ xk l = KRbrack \/ xk l = KSpace)
  | _ => True
  end.
Definition local (xs : list lexeme) (ns : list node) : Prop :=
  forall n, In n (flat_map subnodes ns) -> items_ok n /\ sym_ok xs n.

Lemma sym_ok_mono xs ys n : incl xs ys -> sym_ok xs n -> sym_ok ys n.
Proof. intros I. destruct n; cbn; auto. intros (l & A & B). exists l. split; auto. Qed.
Lemma local_mono xs ys ns : incl xs ys -> local xs ns -> local ys ns.
Proof. intros I H n Hn. destruct (H n Hn). split; [assumption|]. eapply sym_ok_mono; eassumption. Qed.
Lemma local_app xs a b : local xs a -> local xs b -> local xs (a ++ b).
Proof. intros H1 H2 n Hn. rewrite flat_map_app in Hn. apply in_app_or in Hn as []; auto. Qed.
Lemma local_keep xs n ns : local xs [n] -> local xs ns -> local xs (keep n ns).
Proof. intros H1 H2. destruct n; cbn [keep]; try exact H2; apply (local_app xs [_] ns); assumption. Qed.
Lemma keep_item n ns : (n = NNil \/ item n) -> Forall item ns -> Forall item (keep n ns).
Proof. intros [->|H] F; [exact F|]. destruct n; try contradiction; constructor; auto. Qed.

(** A node with children [l]. *)
Lemma local_node xs n l :
  items_ok n -> sym_ok xs n -> (forall y, In y (subnodes n) -> y = n \/ In y (flat_map subnodes l) \/ exists p t, y = NIdent p t) ->
  local xs l -> local xs [n].
Proof.
  intros H1 H2 H3 H4 y Hy. cbn [flat_map] in Hy. rewrite app_nil_r in Hy.
  destruct (H3 y Hy) as [->|[I|(p & t & ->)]]; [auto|auto|]. split; exact I.
Qed.

Lemma grammar_local :
  (forall m xs nd o, GNode m xs nd o -> local xs [nd] /\ (nd = NNil \/ item nd)) /\
  (forall m c xs ns r o, GLoop m c xs ns r o -> local xs ns /\ Forall item ns) /\
  (forall m pk xs nd o, GScript m pk xs nd o -> local xs [nd]) /\
  (forall m pk sg xs args o, GArgs m pk sg xs args o -> local xs args).
Proof.
  apply (G_mutind known_macro
    (fun m xs nd o => local xs [nd] /\ (nd = NNil \/ item nd))
    (fun m c xs ns r o => local xs ns /\ Forall item ns)
    (fun m pk xs nd o => local xs [nd])
    (fun m pk sg xs args o => local xs args)).
  - intros. split; [|now left]. intros n [<-|[]]. repeat split.
  - intros. split; [|now left]. intros n [<-|[]]. repeat split.
  - intros. split; [|now right]. intros n [<-|[]]. split; [exact I|]. exists x. split; [now left|]. split; [reflexivity|]. tauto.
  - intros. split; [|now right]. intros n [<-|[]]. repeat split.
  - intros. split; [|now right]. intros n [<-|[]]. repeat split.
  - intros. split; [|now right]. intros n [<-|[]]. split; [exact I|]. exists x. split; [now left|]. split; [reflexivity|]. tauto.
  - intros. split; [|now right]. intros n [<-|[]]. split; [exact I|]. exists x. split; [now left|]. split; [reflexivity|]. tauto.
  - intros m x xs ns c o K T _ [L F]. split; [|now right].
    apply (local_node _ _ ns); auto; [exact I| |].
    + intros y Hy. cbn [subnodes] in Hy. destruct Hy as [<-|Hy]; auto.
    + eapply local_mono; [|exact L]. now apply incl_tl, incl_refl.
  - intros x xs ns c o K _ [L F]. split; [|now right].
    apply (local_node _ _ ns); auto; [exact I| |].
    + intros y Hy. cbn [subnodes] in Hy. destruct Hy as [<-|Hy]; auto.
    + eapply local_mono; [|exact L]. now apply incl_tl, incl_refl.
  - intros m x xs n o K T _ L. split; [|now right].
    apply (local_node _ _ [n]); try exact I.
    + intros y Hy. cbn [subnodes] in Hy. destruct Hy as [<-|Hy]; auto. right. left. cbn. now rewrite app_nil_r.
    + eapply local_mono; [|exact L]. now apply incl_tl, incl_refl.
  - intros m x xs n o K T _ L. split; [|now right].
    apply (local_node _ _ [n]); try exact I.
    + intros y Hy. cbn [subnodes] in Hy. destruct Hy as [<-|Hy]; auto. right. left. cbn. now rewrite app_nil_r.
    + eapply local_mono; [|exact L]. now apply incl_tl, incl_refl.
  - intros m x xs sg args o K T _ L. split; [|now right].
    apply (local_node _ _ args); try exact I.
    + intros y Hy. cbn [subnodes app] in Hy. destruct Hy as [<-|[<-|Hy]]; eauto.
    + eapply local_mono; [|exact L]. now apply incl_tl, incl_refl.
  - intros. split; [intros n []|constructor].
  - intros. split; [intros n []|constructor].
  - intros m cl x xs n o ys ns c o' NC _ [L1 N1] _ _ [L2 F2]. split.
    + apply local_keep; (eapply local_mono; [|eassumption]).
      * intros z Hz. cbn [In] in Hz |- *. rewrite in_app_iff. tauto.
      * intros z Hz. cbn [In]. rewrite in_app_iff. tauto.
    + now apply keep_item.
  - intros m pk x xs ns c o E K _ [L F].
    apply (local_node _ _ ns); auto; [exact I| |].
    + intros y Hy. cbn [subnodes] in Hy. destruct Hy as [<-|Hy]; auto.
    + eapply local_mono; [|exact L]. now apply incl_tl, incl_refl.
  - intros m pk x xs n o E _ [L _]. exact L.
  - intros m pk n [].
  - intros m pk sg x xs ns c o ys args o' K _ [L F] _ _ LA.
    apply (local_app _ [_] args).
    + apply (local_node _ _ ns); auto; [exact I| |].
      * intros y Hy. cbn [subnodes] in Hy. destruct Hy as [<-|Hy]; auto.
      * eapply local_mono; [|exact L]. intros z Hz. cbn [In]. rewrite in_app_iff. tauto.
    + eapply local_mono; [|exact LA]. intros z Hz. cbn [In]. rewrite in_app_iff. tauto.
  - intros m pk sg x xs ns c o ys args o' E K _ [L F] _ _ LA.
    apply (local_app _ [_] args).
    + apply (local_node _ _ ns); auto; [exact I| |].
      * intros y Hy. cbn [subnodes] in Hy. destruct Hy as [<-|Hy]; auto.
      * eapply local_mono; [|exact L]. intros z Hz. cbn [In]. rewrite in_app_iff. tauto.
    + eapply local_mono; [|exact LA]. intros z Hz. cbn [In]. rewrite in_app_iff. tauto.
  - intros. assumption.
Qed.

(** ** Reached nodes *)
Lemma self_subnodes n : In n (subnodes n).
Proof. destruct n; now left. Qed.
Lemma in_subnodes_list x l y : In x l -> In y (subnodes x) -> In y (flat_map subnodes l).
Proof. intros I J. apply in_flat_map. eauto. Qed.
Lemma typeset_arg_child name args l : typeset_arg name args l ->
  exists z, In z args /\ list_children z = l /\ (exists a b, z = NArg a l b \/ z = NOptArg a l b).
Proof.
  intros H. inv H.
  - exists (NArg a l b). split; [now left|]. split; eauto.
  - exists (NArg a l b). split; [right; now left|]. split; eauto.
  - exists (NOptArg a l b). split; [now left|]. split; eauto.
  - exists (NArg a l b). split; [now left|]. split; eauto.
  - exists (NArg a l b). split; [right; now left|]. split; eauto.
  - exists (NArg a l b). split; [now left|]. split; eauto.
Qed.
Lemma children_subnodes z l x y : (exists a b, z = NArg a l b \/ z = NOptArg a l b) -> In x l -> In y (subnodes x) -> In y (subnodes z).
Proof. intros (a & b & [-> | ->]) I J; cbn [subnodes]; right; eapply in_subnodes_list; eassumption. Qed.
Lemma macro_subnodes nm args z y : In z args -> In y (subnodes z) -> In y (subnodes (NMacro nm args)).
Proof. intros I J. cbn [subnodes]. right. apply in_or_app. right. eapply in_subnodes_list; eassumption. Qed.

Lemma reach_subnodes o m n m' y : reach o m n m' y -> In y (subnodes n).
Proof.
  induction 1 as [o m n|m l x m' y I R IH|o m d a l b x m' y I R IH|o m p name args l x m' y TA I R IH].
  - apply self_subnodes.
  - cbn [subnodes]. right. eapply in_subnodes_list; eassumption.
  - cbn [subnodes]. right. eapply in_subnodes_list; eassumption.
  - apply typeset_arg_child in TA as (z & Iz & _ & E). eapply macro_subnodes; [exact Iz|].
    eapply children_subnodes; eassumption.
Qed.

Lemma subnodes_trans n z y : In z (subnodes n) -> In y (subnodes z) -> In y (subnodes n).
Proof.
  revert z y. induction n using node_ind'; intros z y Hz Hy; cbn [subnodes] in Hz;
    try (destruct Hz as [<-|[]]; exact Hy).
  all: try (destruct Hz as [<-|Hz]; [exact Hy|]).
  all: try (cbn [subnodes]; right; apply in_flat_map in Hz as (w & Iw & Jw); rewrite Forall_forall in H;
            apply in_flat_map; exists w; split; [assumption|]; eapply H; eassumption).
  - apply in_app_or in Hz as [Hz|Hz].
    + destruct nm as [[p t]|]; [|destruct Hz]. destruct Hz as [<-|[]]. destruct Hy as [<-|[]].
      cbn [subnodes]. right. now left.
    + cbn [subnodes]. right. apply in_or_app. right.
      apply in_flat_map in Hz as (w & Iw & Jw). rewrite Forall_forall in H.
      apply in_flat_map. exists w. split; [assumption|]. eapply H; eassumption.
  - cbn [subnodes]. right. eapply IHn; eassumption.
  - cbn [subnodes]. right. eapply IHn; eassumption.
Qed.

Lemma reach_item o m n m' y : reach o m n m' y -> (forall z, In z (subnodes n) -> items_ok z) -> y = n \/ item y.
Proof.
  induction 1 as [o m n|m l x m' y I R IH|o m d a l b x m' y I R IH|o m p name args l x m' y TA I R IH]; intros H.
  - now left.
  - right. destruct IH as [->|IH]; [|pose proof (H _ (self_subnodes _)) as F; cbn in F; rewrite Forall_forall in F; auto|assumption].
    intros z Hz. apply H. cbn [subnodes]. right. eapply in_subnodes_list; eassumption.
  - right. destruct IH as [->|IH]; [|pose proof (H _ (self_subnodes _)) as F; cbn in F; rewrite Forall_forall in F; auto|assumption].
    intros z Hz. apply H. cbn [subnodes]. right. eapply in_subnodes_list; eassumption.
  - right. apply typeset_arg_child in TA as (w & Iw & _ & E).
    destruct IH as [->|IH]; [| |assumption].
    + intros z Hz. apply H. eapply macro_subnodes; [exact Iw|]. eapply children_subnodes; eassumption.
    + assert (F : items_ok w) by (apply H; eapply macro_subnodes; [exact Iw|apply self_subnodes]).
      destruct E as (a & b & [-> | ->]); cbn in F; rewrite Forall_forall in F; auto.
Qed.

Lemma reach_mode o m n m' y : reach o m n m' y ->
  m' = m \/ exists d a l b, In (NMath d a l b) (subnodes n) /\ In y (flat_map subnodes l).
Proof.
  induction 1 as [o m n|m l x m' y I R IH|o m d a l b x m' y I R IH|o m p name args l x m' y TA I R IH].
  - now left.
  - destruct IH as [->|(d & a & l0 & b & J & K)]; [now left|right]. exists d, a, l0, b. split; [|assumption].
    cbn [subnodes]. right. eapply in_subnodes_list; eassumption.
  - right. exists d, a, l, b. split; [now left|]. eapply in_subnodes_list; [eassumption|]. eapply reach_subnodes; eassumption.
  - destruct IH as [->|(d & a & l0 & b & J & K)]; [now left|right]. exists d, a, l0, b. split; [|assumption].
    apply typeset_arg_child in TA as (w & Iw & _ & E). eapply macro_subnodes; [exact Iw|]. eapply children_subnodes; eassumption.
Qed.

(** ** Reached nodes of parsed trees *)
Section Parsed.
Variable U : Z -> bool.

Lemma slice_range x p q t : slice x p q = Some t -> 0 <= p /\ p <= q /\ q <= zlen x.
Proof.
  unfold slice, zlen. destruct ((0 <=? p) && (p <=? q) && (q <=? Z.of_nat (String.length x))) eqn:E; [|discriminate].
  intros _. lia.
Qed.

Lemma symbol_cases r : is_symbol_rune r = true ->
  String (zascii r) "" <> "$" -> String (zascii r) "" <> "^" -> String (zascii r) "" <> "_" ->
  In (String (zascii r) "") bad_math_symbols \/ In (String (zascii r) "") good_math_symbols.
Proof.
  intros H N1 N2 N3. unfold is_symbol_rune in H. cbn [existsb] in H. rewrite !orb_true_iff, !Z.eqb_eq in H.
  repeat (destruct H as [->|H]; [vm_compute in N1, N2, N3 |- *; tauto|]). discriminate.
Qed.

Lemma parsed_fine {A : arith} (parse_float : string -> option (Arith.F A)) x ns m' y :
  parse_expr U x = Ok ns -> reach true false (NList ns) m' y -> ~ refused (is_float parse_float) m' y ->
  fine parse_float x m' y.
Proof.
  intros P R NR. destruct (parse_expr_sound U x ns P) as (xs & Tk & G).
  destruct grammar_local as (_ & GL & _). destruct (GL _ _ _ _ _ _ G) as [L F].
  pose proof (Tokens_at U x xs Tk) as TA. rewrite Forall_forall in TA.
  assert (SN : y = NList ns \/ In y (flat_map subnodes ns)).
  { apply reach_subnodes in R. cbn [subnodes] in R. destruct R as [<-|R]; auto. }
  destruct SN as [->|SN]; [exact I|].
  assert (IT : y = NList ns \/ item y).
  { eapply reach_item; [exact R|]. intros z Hz. cbn [subnodes] in Hz. destruct Hz as [<-|Hz]; [exact F|].
    now destruct (L z Hz). }
  destruct IT as [->|IT]; [exact I|].
  destruct (grammar_leaves U) as (_ & GLv & _). destruct (GLv _ _ _ _ _ _ G) as [LV _]. specialize (LV y SN).
  destruct (L y SN) as [_ SY].
  destruct y as [|l|nm args|a l b|a l b|p t|d a l b|p t|p t|p t|p n|p n]; try exact I; try destruct IT.
  - destruct LV as (p & t & sg & -> & K & AM & l & Il & Kl & <- & <-). cbn [fine].
    repeat split; eauto.
    + destruct (LexAt_macro U x l (TA _ Il) Kl) as (w & nm & _ & _ & E). apply slice_range in E. lia.
    + destruct (LexAt_macro U x l (TA _ Il) Kl) as (w & nm & _ & _ & E). apply slice_range in E.
      pose proof (zlen_nonneg w). pose proof (zlen_nonneg nm). lia.
  - destruct LV as (l & Il & Kl & <- & <-). cbn [fine].
    destruct (TA _ Il) as (_ & s & s' & W & Lx & _). eapply number_text_numeric; eassumption.
  - cbn [fine]. intros ->.
    pose proof (C04_leaf_text U x ns _ P SN) as (_ & _ & E). apply slice_range in E.
    split; [|unfold in_expr; pose proof (zlen_nonneg t); lia].
    destruct (reach_mode _ _ _ _ _ R) as [?|(d & a & l & b & J & K)]; [discriminate|].
    assert (J' : In (NMath d a l b) (flat_map subnodes ns)).
    { cbn [subnodes] in J. destruct J as [J|J]; [discriminate|assumption]. }
    pose proof (C09_no_blank_in_math U x ns d a l b _ P J' K) as NB. cbn [is_blank] in NB.
    destruct SY as (l' & Il & Et & C).
    pose proof (LexAt_shape U x l' (TA _ Il)) as Sh. unfold tok_shape in Sh. fold (xk l') (xt l') in Sh. rewrite Et in Sh.
    assert (Q : In t bad_math_symbols \/ In t good_math_symbols).
    { destruct C as [(Kd & N1 & N2 & N3)|C].
      - rewrite Kd in Sh. destruct Sh as (r & Sr & ->). now apply symbol_cases.
      - destruct C as [Kd|[Kd|[Kd|[Kd|Kd]]]]; rewrite Kd in Sh.
        1,2,3,4: rewrite Sh; vm_compute; tauto.
        destruct Sh as [-> | ->]; discriminate. }
    destruct Q as [Q|Q]; [|assumption]. destruct NR. now constructor.
  - destruct NR. constructor.
  - destruct NR. constructor.
Qed.
End Parsed.
