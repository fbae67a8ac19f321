(** C89: trees and drawings are no larger than their source. *)
From Coq Require Import ZArith String Ascii List Bool Lia QArith Qcanon.
From Verif Require Import Utf8 Utf8Facts GoScanner Token Lexer LexFacts LexText Ast SetTable MacroTable SymTable Parser Grammar GrammarFacts Stream Symbols PropSymbols TreeSpec Arith Exact
  PropParse Box Ship ShipSpec PropShip Mtex MtexSpec MtexFacts PropMtex ReadSpec ReadFacts PropRead LexSpec PropLex.
Import ListNotations.
Local Open Scope string_scope.
Local Open Scope list_scope.
Local Open Scope Z_scope.

(** The number of nodes of a forest (macro names count, missing operands do not). *)
Definition node_count (ns : list node) : nat :=
  List.length (filter (fun n => match n with NNil => false | _ => true end) (flat_map subnodes ns)).
(** The nesting depth of a tree. *)
Fixpoint height (n : node) : nat :=
  match n with
  | NNil => 0
  | NList l | NArg _ l _ | NOptArg _ l _ | NMath _ _ l _ | NMacro _ l => S (fold_right (fun x a => Nat.max (height x) a) O l)
  | NSub _ x | NSup _ x => S (height x)
  | _ => 1
  end%nat.

Definition total {X} (f : X -> Z) (l : list X) : Z := fold_right (fun x a => f x + a) 0 l.
Lemma total_cons {X} (f : X -> Z) x l : total f (x :: l) = f x + total f l.
Proof. reflexivity. Qed.
Lemma total_app {X} (f : X -> Z) l m : total f (l ++ m) = total f l + total f m.
Proof. induction l as [|x l IH]; [reflexivity|]. cbn [app]. rewrite !total_cons. lia. Qed.
Lemma total_nonneg {X} (f : X -> Z) l : (forall x, 0 <= f x) -> 0 <= total f l.
Proof. intros H. induction l as [|x l IH]; [reflexivity|]. rewrite total_cons. specialize (H x). lia. Qed.
Lemma total_le {X} (f g : X -> Z) l : Forall (fun x => f x <= g x) l -> total f l <= total g l.
Proof. induction 1; [reflexivity|]. rewrite !total_cons. lia. Qed.

Fixpoint cost (n : node) : Z :=
  match n with
  | NNil => 0
  | NList l | NArg _ l _ | NOptArg _ l _ | NMath _ _ l _ => 1 + total cost l
  | NMacro nm l => Z.max 2 (match nm with Some (_, t) => zlen t | None => 0 end) + total cost l
  | NSub _ x | NSup _ x => 1 + cost x
  | NIdent _ t | NWord _ t | NLit _ t | NSym _ t => Z.max 1 (zlen t)
  end.
Lemma cost_nonneg n : 0 <= cost n.
Proof.
  induction n using node_ind'; cbn [cost]; try lia.
  all: assert (0 <= total cost l) by (induction H; [reflexivity|rewrite total_cons; lia]); lia.
Qed.

Lemma count_cost n : Z.of_nat (node_count [n]) <= cost n.
Proof.
  assert (D : forall l m, node_count (l ++ m) = (node_count l + node_count m)%nat).
  { intros. unfold node_count. now rewrite flat_map_app, filter_app, app_length. }
  assert (L : forall l, Forall (fun n => Z.of_nat (node_count [n]) <= cost n) l -> Z.of_nat (List.length (filter (fun n => match n with NNil => false | _ => true end) (flat_map subnodes l))) <= total cost l).
  { intros l. induction 1 as [|x l H _ IH]; [cbn; lia|]. change (x :: l) with ([x] ++ l). change (Z.of_nat (node_count ([x] ++ l)) <= total cost ([x] ++ l)).
    rewrite D, total_app, total_cons. change (total cost []) with 0. unfold node_count at 2. lia. }
  assert (O : forall n, Z.of_nat (node_count [n]) = Z.of_nat (List.length (filter (fun n => match n with NNil => false | _ => true end) (subnodes n)))).
  { intros. unfold node_count. cbn [flat_map]. now rewrite app_nil_r. }
  induction n as [|l IH|nm l IH|a l b IH|a l b IH|p s|d a l b IH|p s|p s|p s|p x IH|p x IH] using node_ind'; rewrite O; cbn [subnodes filter List.length cost]; try (specialize (L l IH)); try lia.
  - destruct nm as [[p t]|]; cbn [app filter List.length]; lia.
  - rewrite O in IH. lia.
  - rewrite O in IH. lia.
Qed.
Lemma height_cost n : Z.of_nat (height n) <= cost n.
Proof.
  assert (L : forall l, Forall (fun n => Z.of_nat (height n) <= cost n) l -> Z.of_nat (fold_right (fun x a => Nat.max (height x) a) O l) <= total cost l).
  { intros l. induction 1 as [|x l H _ IH]; [cbn; lia|]. cbn [fold_right]. rewrite total_cons. pose proof (cost_nonneg x). pose proof (total_nonneg cost l cost_nonneg). lia. }
  induction n as [|l IH|nm l IH|a l b IH|a l b IH|p s|d a l b IH|p s|p s|p s|p x IH|p x IH] using node_ind'; cbn [height cost]; try (specialize (L l IH)); lia.
Qed.

Lemma chars_fuel_count n : forall s, (List.length (chars_fuel n s) <= n)%nat.
Proof. induction n as [|n IH]; intros s; cbn [chars_fuel]; [reflexivity|]. destruct s; [cbn; lia|]. destruct (decode_rune _) as [r w]. cbn [List.length]. specialize (IH (sdrop w (String a s))). lia. Qed.
Lemma letters_count s : Z.of_nat (List.length (letters s)) <= zlen s.
Proof. unfold letters, zlen. rewrite map_length. pose proof (chars_fuel_count (String.length s) s). unfold chars. lia. Qed.
Lemma sdrop_zlen n s : zlen (sdrop n s) <= zlen s.
Proof. unfold zlen. rewrite sdrop_length. lia. Qed.

Definition marked (l : list node) : Prop := forall inner math typ k, Z.of_nat (List.length (flat_map (reading inner math typ k) l)) <= total cost l.
Definition marked1 (n : node) : Prop :=
  (forall inner math typ k, Z.of_nat (List.length (reading inner math typ k n)) <= cost n) /\
  match n with NArg _ l _ | NOptArg _ l _ => marked l | _ => True end.
Lemma marks_cost n : marked1 n.
Proof.
  assert (L : forall l, Forall marked1 l -> marked l).
  { unfold marked. induction 1 as [|x l [H _] _ IH]; intros; [cbn; lia|]. cbn [flat_map]. rewrite app_length, total_cons.
    specialize (H inner math typ k). specialize (IH inner math typ k). lia. }
  assert (T : forall t k s, Z.of_nat (List.length (map (fun x => Letter x t k) (letters s))) <= zlen s) by (intros; rewrite map_length; apply letters_count).
  assert (Z0 : forall s, 0 <= zlen s) by (intros; unfold zlen; lia).
  induction n as [|l IH|nm l IH|a l b IH|a l b IH|p s|d a l b IH|p s|p s|p s|p x IH|p x IH] using node_ind'; (split; [intros inner math typ k|now auto]);
    try (pose proof (L l IH) as Ll); cbn [reading cost List.length]; try (pose proof (total_nonneg cost l cost_nonneg)); try lia.
  - destruct inner; cbn [List.length]; [|lia]. pose proof (Ll true math typ k). lia.
  - destruct nm as [[p name]|]; [|cbn [List.length]; lia].
    assert (ONE : forall a n b l', l = NArg a n b :: l' -> forall k, Z.of_nat (List.length (flat_map (reading true math typ k) n)) + 1 <= total cost l - total cost l').
    { intros a n b l' -> k'. inversion IH as [|? ? [_ M] _]; subst. specialize (M true math typ k'). rewrite total_cons. cbn [cost]. lia. }
    assert (TWO : forall a n b c e d l', l = NArg a n b :: NArg c e d :: l' -> forall k,
      Z.of_nat (List.length (flat_map (reading true math typ k) n)) + Z.of_nat (List.length (flat_map (reading true math typ k) e)) <= total cost l).
    { intros a n b c e d l' -> k'. inversion IH as [|? ? [_ M] IH1]; subst. inversion IH1 as [|? ? [_ N] _]; subst. specialize (M true math typ k'). specialize (N true math typ k').
      rewrite !total_cons. cbn [cost]. pose proof (total_nonneg cost l' cost_nonneg). lia. }
    assert (OPT : forall a n b c e d l', l = NOptArg a n b :: NArg c e d :: l' -> forall k k',
      Z.of_nat (List.length (flat_map (reading true math typ k) n)) + Z.of_nat (List.length (flat_map (reading true math typ k') e)) <= total cost l).
    { intros a n b c e d l' -> k' k2. inversion IH as [|? ? [_ M] IH1]; subst. inversion IH1 as [|? ? [_ N] _]; subst. specialize (M true math typ k'). specialize (N true math typ k2).
      rewrite !total_cons. cbn [cost]. pose proof (total_nonneg cost l' cost_nonneg). lia. }
    destruct (one_of _ name) eqn:?; [cbn [List.length]; lia|].
    destruct (one_of FunctionNames_list _) eqn:?.
    { specialize (T "rm" k (sdrop 1 name)). pose proof (sdrop_zlen 1 name). lia. }
    destruct (one_of ["\frac"; "\tfrac"] name) eqn:?.
    { destruct l as [|[] [|[] l']]; cbn [List.length]; try lia. specialize (TWO _ _ _ _ _ _ _ eq_refl (k + 1)%nat). rewrite !app_length. cbn [List.length]. lia. }
    destruct (String.eqb_spec name "\dfrac") as [->|_].
    { destruct l as [|[] [|[] l']]; cbn [List.length]; try lia. specialize (TWO _ _ _ _ _ _ _ eq_refl (k + 0)%nat). rewrite !app_length. cbn [List.length]. lia. }
    destruct (String.eqb_spec name "\binom") as [->|_].
    { change (zlen "\binom") with 6. destruct l as [|[] [|[] l']]; cbn [List.length]; try lia. specialize (TWO _ _ _ _ _ _ _ eq_refl (k + 1)%nat). rewrite !app_length. cbn [List.length]. lia. }
    destruct (String.eqb_spec name "\sqrt") as [->|_].
    { change (zlen "\sqrt") with 5. destruct l as [|[] [|[] [|? ?]]]; cbn [List.length]; try lia.
      - specialize (ONE _ _ _ _ eq_refl (k + 0)%nat). rewrite !app_length. cbn [List.length]. change (total cost []) with 0 in ONE. lia.
      - specialize (OPT _ _ _ _ _ _ _ eq_refl (k + 2)%nat (k + 0)%nat). rewrite !app_length. cbn [List.length]. lia. }
    destruct (String.eqb_spec name "\overline") as [->|_].
    { destruct l as [|[] l']; cbn [List.length]; try lia. specialize (ONE _ _ _ _ eq_refl (k + 0)%nat). rewrite !app_length. cbn [List.length].
      pose proof (total_nonneg cost l' cost_nonneg). lia. }
    cbn [List.length]. lia.
  - specialize (Ll false true "it" k). lia.
  - specialize (T typ k s). lia.
  - specialize (T typ k s). lia.
  - destruct (_ && _); cbn [List.length]; lia.
  - pose proof (cost_nonneg x). lia.
  - pose proof (cost_nonneg x). lia.
Qed.

(** ** The cost of a tree and its tokens *)
Lemma macro_long t sg : known_macro t = Some sg -> 2 <= zlen t.
Proof.
  unfold known_macro, lookup_macro. intros H.
  assert (A : forall (l : list (string * option string)), forallb (fun kv => 2 <=? zlen (fst kv)) l = true -> forall v, assoc t l = Some v -> 2 <= zlen t).
  { induction l as [|[k v] l IH]; cbn [assoc forallb]; [discriminate|]. intros F w. apply andb_true_iff in F as [F1 F2].
    destruct (String.eqb_spec t k) as [->|]; [|eauto]. intros _. cbn in F1. lia. }
  destruct (assoc t builtin_macros) as [v|] eqn:E.
  - apply (A builtin_macros) in E; [exact E|]. vm_compute. reflexivity.
  - destruct t as [|a t']; [discriminate H|].
    assert (N : t' <> "").
    { intros ->. destruct a as [[] [] [] [] [] [] [] []]; vm_compute in H; discriminate H. }
    unfold zlen. destruct t'; [now destruct N|]. cbn [String.length]. lia.
Qed.
Notation tlen := (fun x => zlen (xt x)).
Lemma grammar_cost :
  (forall m xs n o, GNode known_macro m xs n o -> Forall (fun x => 1 <= zlen (xt x)) xs -> cost n <= total tlen xs) /\
  (forall m cl xs ns c o, GLoop known_macro m cl xs ns c o -> Forall (fun x => 1 <= zlen (xt x)) xs -> total cost ns <= total tlen xs) /\
  (forall m pk xs n o, GScript known_macro m pk xs n o -> Forall (fun x => 1 <= zlen (xt x)) xs -> cost n <= total tlen xs) /\
  (forall m pk sg xs args o, GArgs known_macro m pk sg xs args o -> Forall (fun x => 1 <= zlen (xt x)) xs -> total cost args <= total tlen xs).
Proof.
  apply G_mutind; intros; rewrite ?total_cons, ?total_app; cbn [cost];
    repeat match goal with H : Forall _ (_ :: _) |- _ => inversion H; subst; clear H | H : Forall _ (_ ++ _) |- _ => apply Forall_app in H as [? ?] end;
    repeat match goal with H : Forall ?P ?l -> _, H' : Forall ?P ?l |- _ => specialize (H H') end; try (change (total tlen []) with 0); rewrite ?total_cons in *; cbn [cost] in *; try lia.
  - pose proof (macro_long _ _ H0). lia.
  - reflexivity.
  - change (total cost []) with 0. lia.
  - match goal with H : Forall _ (x :: xs) -> _ |- _ => specialize (H ltac:(constructor; assumption)) end. pose proof (cost_nonneg n). destruct n; cbn [keep]; rewrite ?total_cons; try lia.
  - match goal with H : Forall _ (x :: xs) -> _ |- _ => specialize (H ltac:(constructor; assumption)) end. lia.
  - reflexivity.
Qed.

Lemma wf_zlen c : wf_chr c -> 1 <= zlen (c_raw c).
Proof. intros [W _]. destruct (c_raw c); [now destruct W|]. unfold zlen. cbn [String.length]. lia. Qed.
Lemma comment_short U w b t : comment U w b t -> zlen t <= zlen (raw_of w).
Proof.
  assert (Z0 : forall s, 0 <= zlen s) by (intros; unfold zlen; lia).
  induction 1; cbn [raw_of]; rewrite ?raw_of_app, ?zlen_app; try (specialize (Z0 (c_raw c))); try lia; apply Z0.
Qed.
Lemma text_short U s y s' : wf_ls s -> lex1 U s = LexOk y s' -> xk y <> KEOF -> zlen (xt y) <= zlen (raw_of (x_raw y)).
Proof.
  intros W L K. destruct s as [o l]. pose proof (lex1_split _ _ _ _ L) as (_ & _). apply lex_sound in L as (sk & a & after & -> & A & T & E); [|exact K].
  unfold read_as in E. assert (R : x_raw y = a) by (injection E as E _; now rewrite E). rewrite R. clear R E.
  unfold wf_ls in W. cbn [l_rest] in W. apply Forall_app in W as [_ W]. apply Forall_app in W as [W _].
  assert (Z0 : forall s, 0 <= zlen s) by (intros; unfold zlen; lia).
  revert W. generalize dependent (xt y). generalize dependent (xk y). intros k _ t T. destruct T; intros W; try reflexivity.
  all: try (inversion W as [|? ? W1 W2]; subst; apply wf_zlen in W1; cbn [raw_of]; rewrite ?zlen_app).
  - change (zlen " ") with 1. pose proof (Z0 ""). lia.
  - inversion W2 as [|? ? W3 _]; subst. apply wf_zlen in W3. cbn [raw_of]. rewrite ?zlen_app. change (zlen "\ ") with 2. pose proof (Z0 ""). cbn [raw_of] in *. lia.
  - rewrite raw_of_app, zlen_app. change (zlen "\") with 1. pose proof (Z0 (raw_of sk0)). lia.
  - change (zlen "\") with 1. pose proof (Z0 (raw_of sk0)). lia.
  - apply comment_short in H0. change (zlen "%") with 1. lia.
  - pose proof (Z0 ""). lia.
  - pose proof (Z0 ""). lia.
Qed.
Lemma raw_cons_zlen c l : wf_chr c -> 1 <= zlen (raw_of (c :: l)).
Proof. intros W. apply wf_zlen in W. cbn [raw_of]. rewrite zlen_app. unfold zlen in *. lia. Qed.
Lemma shape_long U t : tok_shape U t -> t_kind t <> KEOF -> 1 <= zlen (t_text t).
Proof.
  unfold tok_shape. intros H K.
  assert (P : forall a s, 1 <= zlen (String a s)) by (intros; unfold zlen; cbn [String.length]; lia).
  destruct (t_kind t); try contradiction; try (rewrite H; apply P).
  all: repeat match goal with H : exists _, _ |- _ => destruct H as [? H] | H : _ /\ _ |- _ => destruct H as [? H] end; try (rewrite H; apply P); try (rewrite H; now apply raw_cons_zlen).
  - destruct H as [H|H]; rewrite H; apply P.
Qed.
Lemma Lexes_texts U s xs s' : wf_ls s -> Lexes U s xs s' -> Forall (fun x => 1 <= zlen (xt x)) xs /\ total tlen xs <= total (fun x => zlen (raw_of (x_raw x))) xs.
Proof.
  intros W L. induction L as [s|s x s1 xs s2 L K _ IH]; [split; [constructor|reflexivity]|].
  destruct (IH (lex1_wf _ _ _ _ W L)) as [F T]. split.
  - constructor; [|exact F]. apply (shape_long U); [eapply lex1_shape; eassumption|exact K].
  - rewrite !total_cons. pose proof (text_short _ _ _ _ W L K). cbn beta. lia.
Qed.
Lemma Tiles_total o src xs o' src' : Tiles o src xs o' src' -> total (fun x => zlen (raw_of (x_raw x))) xs <= zlen src.
Proof.
  induction 1 as [|o gap ext src l xs o' src' _ _ -> _ _ IH]; [unfold zlen; cbn; lia|].
  rewrite total_cons, !zlen_app. unfold zlen in *. lia.
Qed.
Lemma parsed_cost U x ns : parse_expr U x = Ok ns -> total cost ns <= zlen x.
Proof.
  intros P. apply C05_grammar in P as (xs & T & G). destruct (C02_tokens_tile_all U x xs T) as (_ & bom & src & o & w & E & _ & TI & _).
  destruct T as (s' & s & L & _). apply Lexes_texts in L as [F LE]; [|apply init_lex_wf]. apply Tiles_total in TI.
  destruct grammar_cost as (_ & GL & _). specialize (GL _ _ _ _ _ _ G F). subst x. rewrite zlen_app. pose proof (Zle_0_nat (String.length bom)). unfold zlen in *. lia.
Qed.

Lemma Forall2_len {X Y} (P : X -> Y -> Prop) l m : Forall2 P l m -> List.length l = List.length m.
Proof. induction 1; cbn; congruence. Qed.

(** A parsed tree has at most as many nodes as its source has bytes, and is nested
    at most as deep. *)
Theorem C89_nodes U x ns : parse_expr U x = Ok ns -> (node_count ns <= String.length x)%nat.
Proof.
  intros P. apply parsed_cost in P. assert (C : Z.of_nat (node_count ns) <= total cost ns); [|unfold zlen in P; lia].
  clear P. induction ns as [|n ns IH]; [cbn; lia|]. pose proof (count_cost n) as N. rewrite total_cons. unfold node_count in *. cbn [flat_map] in *.
  rewrite app_nil_r in N. rewrite filter_app, app_length. lia.
Qed.
Theorem C89_depth U x ns n : parse_expr U x = Ok ns -> In n ns -> (height n <= String.length x)%nat.
Proof.
  intros P I. apply parsed_cost in P. pose proof (height_cost n). apply in_split in I as (l1 & l2 & ->). rewrite total_app, total_cons in P.
  pose proof (total_nonneg cost l1 cost_nonneg). pose proof (total_nonneg cost l2 cost_nonneg). unfold zlen in P. lia.
Qed.
(** Drawing a typeset expression makes at most as many calls as its source has
    bytes. *)
Theorem C89_calls : forall (A : arith) (St : Type) (be : @backend A St) range parse_float uni_letter expr size dpi s t err s' ox oy t' st,
  fair range ->
  mtex_parse uni_letter range be parse_float expr size dpi s = Some (LOk ((t, err), s')) ->
  ship_call ox oy t = LOk (t', st) ->
  (List.length (s_out st) <= String.length expr)%nat.
Proof.
  intros * FR E SC. apply parse_inv in E as (l & P & E). apply parsed_cost in P.
  assert (BR : bar_rules be (fun _ _ => True)) by (constructor; auto).
  destruct (drawn_marks range be parse_float _ expr size dpi s l t s' ox oy t' st FR BR E SC) as (ls & R & W).
  assert (N : (List.length (flat_map seen ls) <= List.length ls)%nat).
  { clear. induction ls as [|y ls IH]; cbn [flat_map]; [reflexivity|]. rewrite app_length. assert ((List.length (seen y) <= 1)%nat) by (destruct y as [| |]; cbn [seen]; [cbn; lia|destruct (vvisible _); cbn; lia|cbn; lia]). cbn [List.length]. lia. }
  apply (f_equal (@List.length _)) in W. rewrite map_length in W. rewrite W.
  apply Forall2_len in R. assert (M : marked l).
  { unfold marked. clear. intros. induction l as [|n l IH]; [cbn; lia|]. cbn [flat_map]. rewrite app_length, total_cons. destruct (marks_cost n) as [H _]. specialize (H inner math typ k). lia. }
  specialize (M true false "rm" 0%nat). unfold zlen in P. lia.
Qed.
(** A case, and one in which the bounds are attained. *)
Example C89_ex : exists ns, parse_expr ascii_only "$\frac{\sqrt{x}}{2}^{a}$" = Ok ns /\ node_count ns = 13%nat /\ map height ns = [6%nat].
Proof. eexists. split; [vm_compute; reflexivity|]. split; reflexivity. Qed.
Example C89_ex_tight : exists ns, parse_expr ascii_only "$($" = Ok ns /\ node_count ns = 2%nat /\ parse_expr ascii_only "$(" = Ok [NMath "$" 0 [NSym 1 "("] 0].
Proof. eexists. split; [vm_compute; reflexivity|]. split; vm_compute; reflexivity. Qed.
Example C89_ex_calls : List.length (c59_texts "ab") = String.length "ab" /\ List.length (c59_texts "a $x\sin\frac{1}{\sqrt[n]{2}}$ \binom{p}{q}b") = 18%nat.
Proof. split; vm_compute; reflexivity. Qed.
Print Assumptions C89_nodes.
Print Assumptions C89_depth.
Print Assumptions C89_calls.
