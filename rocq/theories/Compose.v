(** Parsing a concatenation. *)
From Coq Require Import ZArith String Ascii List Bool Lia ZifyBool.
From Verif Require Import Utf8 GoScanner Token Lexer Ast Parser Utf8Facts LexFacts LexText Grammar Stream
  ParserFacts GrammarFacts TreeSpec TreeFacts BoundarySpec LexTail LexProps.
Import ListNotations.
Local Open Scope string_scope.
Local Open Scope list_scope.
Local Open Scope Z_scope.

(** ** Decoding a concatenation *)

Lemma accept2_low b0 b1 : b1 < 128 \/ 192 <= b1 -> accept2 b0 b1 = false.
Proof. intros H. unfold accept2, in_range. repeat destruct (_ =? _); lia. Qed.
Lemma cont_low a : byte a < 128 \/ 192 <= byte a -> cont a = false.
Proof. intros H. unfold cont, in_range. lia. Qed.

Lemma decode_rune_app a b : a <> "" -> first_byte_ok b -> decode_rune (append a b) = decode_rune a.
Proof.
  intros Ne F. destruct b as [|c b]; [now rewrite sapp_nil_r|]. cbn in F.
  destruct a as [|a0 [|a1 [|a2 [|a3 a]]]]; [congruence|..]; cbn [append]; unfold decode_rune.
  - rewrite (accept2_low (byte a0) (byte c) F). destruct (byte a0 <? 128); [reflexivity|].
    destruct (in_range 194 223 (byte a0)); [reflexivity|].
    destruct (in_range 224 239 (byte a0)); [destruct b; reflexivity|].
    destruct (in_range 240 244 (byte a0)); [destruct b as [|? [|? ?]]; reflexivity|reflexivity].
  - rewrite (cont_low c F), !andb_false_r. destruct b as [|? ?]; reflexivity.
  - rewrite (cont_low c F), !andb_false_r. reflexivity.
  - reflexivity.
Qed.

Lemma sdrop_app_le n a b : (n <= String.length a)%nat -> sdrop n (append a b) = append (sdrop n a) b.
Proof. revert a; induction n as [|n IH]; intros [|c a] H; cbn in *; try reflexivity; [lia|]. apply IH. lia. Qed.
Lemma stake_app_le n a b : (n <= String.length a)%nat -> stake n (append a b) = stake n a.
Proof. revert a; induction n as [|n IH]; intros [|c a] H; cbn in *; try reflexivity; [lia|]. f_equal. apply IH. lia. Qed.

Lemma chars_app a b : first_byte_ok b -> chars (append a b) = chars a ++ chars b.
Proof.
  intros F. remember (String.length a) as n eqn:En. revert a En.
  induction n as [n IH] using (well_founded_induction lt_wf). intros a En.
  destruct a as [|c a]; [reflexivity|].
  assert (Ne : String c a <> "") by discriminate. remember (String c a) as s eqn:Es.
  pose proof (decode_rune_width s Ne) as [W1 W2].
  rewrite (chars_step s Ne), (chars_step (append s b)) by (subst s; discriminate).
  rewrite decode_rune_app by assumption. rewrite stake_app_le, sdrop_app_le by assumption.
  cbn [app]. f_equal. eapply IH; [|reflexivity]. rewrite sdrop_length. lia.
Qed.

(** ** Changing what follows a sequence of complete constructs *)

Fixpoint setpk (pk : Z) (xs : list lexeme) : list lexeme :=
  match xs with
  | [] => []
  | [x] => [set_peek pk x]
  | x :: xs' => x :: setpk pk xs'
  end.

Lemma setpk_app pk xs ys : ys <> [] -> setpk pk (xs ++ ys) = xs ++ setpk pk ys.
Proof.
  intros N. induction xs as [|x xs IH]; [reflexivity|]. cbn [app setpk].
  destruct (xs ++ ys) eqn:E; [destruct xs; [cbn in E; congruence|discriminate]|]. now rewrite IH.
Qed.
Lemma setpk_app2 pk xs ys : setpk pk (xs ++ ys) = match ys with [] => setpk pk xs | _ => xs ++ setpk pk ys end.
Proof. destruct ys; [now rewrite app_nil_r|]. now apply setpk_app. Qed.

Lemma setpk_cons pk x xs : setpk pk (x :: xs) =
  match xs with [] => set_peek pk x | _ => x end :: match xs with [] => [] | _ => setpk pk xs end.
Proof. destruct xs; reflexivity. Qed.

Lemma setpk_cons' pk x xs : exists x', setpk pk (x :: xs) = x' :: setpk pk xs /\
  x_tok x' = x_tok x /\ (xs <> [] -> x' = x).
Proof.
  destruct xs as [|y xs]; [exists (set_peek pk x)|exists x]; repeat split; congruence.
Qed.

Lemma setpk_nil pk xs : setpk pk xs = [] <-> xs = [].
Proof. destruct xs as [|x [|y xs]]; cbn; split; congruence. Qed.

Lemma closes_tok c x y : x_tok x = x_tok y -> closes c x -> closes c y.
Proof. unfold closes, xk, xt. intros ->. auto. Qed.

(** No signature ends with an optional argument. *)
Definition solid_sig (sg : list slot) : bool :=
  match rev sg with Opt :: _ => false | _ => true end.

Lemma solid_sig_tl s sg : solid_sig (s :: sg) = true -> solid_sig sg = true.
Proof.
  unfold solid_sig. cbn [rev]. destruct (rev sg) as [|y l] eqn:E; [reflexivity|]. now cbn.
Qed.

Lemma table_solid :
  forallb (fun kv => match snd kv with Some sig => solid_sig (sig_slots sig) | None => true end)
    MacroTable.builtin_macros = true.
Proof. vm_compute. reflexivity. Qed.

Lemma known_solid nm sg : known_macro nm = Some sg -> solid_sig sg = true.
Proof.
  unfold known_macro, lookup_macro. intros H.
  destruct (assoc nm MacroTable.builtin_macros) as [[sig|]|] eqn:E; [|discriminate|].
  - injection H as <-. pose proof table_solid as T. rewrite forallb_forall in T.
    assert (I : exists k, In (k, Some sig) MacroTable.builtin_macros).
    { revert E. generalize MacroTable.builtin_macros as l. induction l as [|[k v] l IH]; cbn; [discriminate|].
      destruct (String.eqb nm k); intros E; [injection E as ->; eauto|]. destruct (IH E) as (k' & I); eauto. }
    destruct I as (k & I). exact (T _ I).
  - destruct nm as [|c nm]; [discriminate|]. destruct c as [[] [] [] [] [] [] [] []]; try discriminate H.
    destruct (assoc nm SymTable.tex2uni); [|discriminate]. injection H as <-. reflexivity.
Qed.

Section Setpk.
Notation GNode := (GNode known_macro).
Notation GLoop := (GLoop known_macro).
Notation GScript := (GScript known_macro).
Notation GArgs := (GArgs known_macro).
Variable pk : Z.

Lemma peek_after_setpk xs : forall d, xs <> [] -> peek_after d (setpk pk xs) = pk.
Proof.
  induction xs as [|x xs IH]; intros d N; [congruence|]. destruct xs as [|y xs]; [reflexivity|].
  specialize (IH d ltac:(discriminate)). change (setpk pk (x :: y :: xs)) with (x :: setpk pk (y :: xs)).
  unfold peek_after in *. cbn [rev]. destruct (rev (setpk pk (y :: xs))) eqn:E.
  - exfalso. apply (f_equal (@rev _)) in E. rewrite rev_involutive in E. now apply (proj1 (setpk_nil pk _)) in E.
  - exact IH.
Qed.

Lemma GArgs_solid_nil m p p' sg args o : solid_sig sg = true -> GArgs m p sg [] args o -> GArgs m p' sg [] args o.
Proof.
  intros S G. remember [] as xs eqn:E. revert S E. induction G; intros S E; try discriminate; [constructor|].
  subst. exfalso. apply solid_sig_tl in S as S'. specialize (IHG S' eq_refl).
  inversion IHG; subst; [|]; cbn in S; [discriminate|].
  clear -S S' IHG. revert S S'. 
  assert (X : forall sg p args o, GArgs m p sg [] args o -> forallb (fun s => match s with Opt => true | _ => false end) sg = true).
  { intros sg1 p1 args1 o1 G. remember [] as xs eqn:E. induction G; try discriminate; auto. }
  apply X in IHG. unfold solid_sig. cbn [rev]. intros S _. cbn in IHG.
  assert (Y : forallb (fun s => match s with Opt => true | _ => false end) (rev sg0 ++ [Opt]) = true).
  { rewrite forallb_app. cbn. rewrite andb_true_r. rewrite forallb_forall in IHG |- *. intros z I. apply IHG. now apply in_rev in I. }
  destruct (rev sg0 ++ [Opt]) as [|z l]; [|destruct z]; cbn in *; try discriminate.
Qed.

Lemma grammar_setpk :
  (forall m xs nd o, GNode m xs nd o -> o = false -> GNode m (setpk pk xs) nd o) /\
  (forall m c xs ns r o, GLoop m c xs ns r o -> o = false -> GLoop m c (setpk pk xs) ns r o) /\
  (forall m p xs nd o, GScript m p xs nd o -> o = false -> GScript m p (setpk pk xs) nd o) /\
  (forall m p sg xs args o, GArgs m p sg xs args o -> o = false -> solid_sig sg = true ->
     GArgs m p sg (setpk pk xs) args o).
Proof.
  apply (G_mutind known_macro); intros; subst.
  all: try (match goal with |- context [setpk pk [?x]] => change (setpk pk [x]) with [set_peek pk x];
     change (xp x) with (xp (set_peek pk x)); try change (xt x) with (xt (set_peek pk x)) end; constructor; assumption).
  - (* math *)
    destruct (setpk_cons' pk x xs) as (x' & -> & Et & _). unfold xk, xt, xp in *. rewrite <- Et in *.
    apply (G_math known_macro m x'); auto.
  - destruct (setpk_cons' pk x xs) as (x' & -> & Et & _). unfold xk, xt, xp in *. rewrite <- Et in *.
    apply (G_group known_macro x' _ _ c); auto.
  - destruct (setpk_cons' pk x xs) as (x' & -> & Et & Ex).
    rewrite Ex in * by (intros ->; match goal with H : GScript _ _ [] _ _ |- _ => inversion H end).
    apply (G_sup known_macro m x); auto.
  - destruct (setpk_cons' pk x xs) as (x' & -> & Et & Ex).
    rewrite Ex in * by (intros ->; match goal with H : GScript _ _ [] _ _ |- _ => inversion H end).
    apply (G_sub known_macro m x); auto.
  - (* macro *)
    assert (Sg : solid_sig sg = true) by (eapply known_solid; eassumption).
    destruct xs as [|y xs].
    + cbn [setpk]. change (xp x) with (xp (set_peek pk x)). change (xt x) with (xt (set_peek pk x)).
      apply (G_macro known_macro m (set_peek pk x) [] sg); auto.
      eapply GArgs_solid_nil; eassumption.
    + rewrite setpk_cons. apply (G_macro known_macro m x _ sg); auto.
  - discriminate.
  - (* node *)
    change (x :: xs ++ ys) with ((x :: xs) ++ ys). rewrite setpk_app2. destruct o.
    { specialize (H2 eq_refl). subst ys. inversion H3; subst; discriminate. }
    destruct ys as [|y ys].
    + destruct (setpk_cons' pk x xs) as (x' & Ex & Et & _). rewrite Ex in *.
      replace (x' :: setpk pk xs) with (x' :: setpk pk xs ++ []) by now rewrite app_nil_r.
      inversion H3; subst; discriminate.
    + cbn [app]. eapply L_node; eauto. discriminate.
  - destruct (setpk_cons' pk x xs) as (x' & -> & Et & _). unfold xk in *. rewrite <- Et in *.
    apply (S_group known_macro m 123 x' _ _ c); auto.
  - destruct (setpk_cons' pk x xs) as (x' & E & Et & _). rewrite E in *. apply S_node; auto.
  - constructor.
  - (* required *)
    apply orb_false_iff in H5 as [-> ->]. specialize (H1 eq_refl).
    apply solid_sig_tl in H6 as S'. specialize (H4 eq_refl S').
    change (x :: xs ++ ys) with ((x :: xs) ++ ys). rewrite setpk_app2. destruct ys as [|y ys].
    + destruct (setpk_cons' pk x xs) as (x' & -> & Et & _).
      replace (x' :: setpk pk xs) with (x' :: setpk pk xs ++ []) by now rewrite app_nil_r.
      unfold xk, xp in *. rewrite <- Et in *.
      apply (A_req known_macro m _ sg x' _ ns c false [] args false); auto.
      cbn [setpk] in H4. eapply GArgs_solid_nil; eassumption.
    + cbn [app]. apply (A_req known_macro m _ sg x xs ns c false (setpk pk (y :: ys)) args false); auto. discriminate.
  - apply orb_false_iff in H6 as [-> ->]. specialize (H2 eq_refl).
    apply solid_sig_tl in H7 as S'. specialize (H5 eq_refl S').
    change (x :: xs ++ ys) with ((x :: xs) ++ ys). rewrite setpk_app2. destruct ys as [|y ys].
    + destruct (setpk_cons' pk x xs) as (x' & -> & Et & _).
      replace (x' :: setpk pk xs) with (x' :: setpk pk xs ++ []) by now rewrite app_nil_r.
      unfold xk, xp in *. rewrite <- Et in *.
      apply (A_opt known_macro m 91 sg x' _ ns c false [] args false); auto.
      cbn [setpk] in H5. eapply GArgs_solid_nil; eassumption.
    + cbn [app]. apply (A_opt known_macro m _ sg x xs ns c false (setpk pk (y :: ys)) args false); auto. discriminate.
  - apply A_noopt; auto. apply H1; auto. now apply solid_sig_tl in H3.
Qed.

Lemma GSeq_setpk m xs ns : GSeq known_macro m xs ns -> GSeq known_macro m (setpk pk xs) ns.
Proof.
  induction 1 as [|xs n ys ns G Q IH]; [constructor|]. rewrite setpk_app2. destruct ys as [|y ys].
  - rewrite <- (app_nil_r (setpk pk xs)). constructor; [now apply grammar_setpk|exact Q].
  - constructor; assumption.
Qed.
End Setpk.

(** ** Lexing a concatenation *)

Section Lexing.
Variable U : Z -> bool.
Notation lex1 := (lex1 U).
Notation Lexes := (Lexes U).

Lemma lex1_wf' s x s' : Forall wf_chr (l_rest s) -> lex1 s = LexOk x s' -> Forall wf_chr (l_rest s').
Proof.
  intros W H. apply lex1_split in H as (E & _). rewrite E in W. rewrite !Forall_app in W. tauto.
Qed.

Lemma set_peek_id x : set_peek (x_peek x) x = x.
Proof. now destruct x. Qed.

Lemma Lexes_tail s xs s' : Lexes s xs s' -> forall t, Forall wf_chr (l_rest s) ->
  (l_rest s' = [] -> match t, rev xs with c :: _, x :: _ => tail_ok U x (c_rune c) = true | _, _ => True end) ->
  Lexes (mk_ls (l_off s) (l_rest s ++ t)) (setpk (peek (l_rest s' ++ t)) xs) (mk_ls (l_off s') (l_rest s' ++ t)).
Proof.
  induction 1 as [s|s x s1 xs s2 L K Ls IH]; intros t W T; [constructor|].
  pose proof (lex1_wf' _ _ _ W L) as W1. destruct s as [o l]. cbn [l_off l_rest] in *.
  assert (L' : lex1 (mk_ls o (l ++ t)) = LexOk (set_peek (peek (l_rest s1 ++ t)) x) (mk_ls (l_off s1) (l_rest s1 ++ t))).
  { apply lex1_tail; auto. intros E. destruct xs as [|y xs].
    - inversion Ls; subst. specialize (T E). cbn in T. now destruct t.
    - exfalso. inversion Ls as [|? ? sy ? ? Hy Ky Lsy]; subst. apply lex1_split in Hy as (E2 & _ & _ & _ & _ & _ & Ne).
      rewrite E in E2. specialize (Ne Ky). destruct (x_skip y); [|discriminate E2].
      destruct (x_raw y); [contradiction|discriminate E2]. }
  destruct xs as [|y xs].
  - inversion Ls; subst. cbn [setpk]. econstructor; [exact L'|exact K|constructor].
  - change (setpk (peek (l_rest s2 ++ t)) (x :: y :: xs)) with (x :: setpk (peek (l_rest s2 ++ t)) (y :: xs)).
    assert (Ex : set_peek (peek (l_rest s1 ++ t)) x = x).
    { rewrite peek_app_ne.
      - apply lex1_split in L as (_ & _ & _ & _ & <- & _). apply set_peek_id.
      - inversion Ls as [|? ? sy ? ? Hy Ky Lsy]; subst. intros E. apply lex1_split in Hy as (E2 & _ & _ & _ & _ & _ & Ne).
        rewrite E in E2. specialize (Ne Ky). destruct (x_skip y); [|discriminate E2].
        destruct (x_raw y); [contradiction|discriminate E2]. }
    rewrite Ex in L'. econstructor; [exact L'|exact K|]. apply IH; [assumption|].
    intros E. specialize (T E). destruct t as [|c t]; [exact I|]. cbn [rev] in *.
    destruct (rev xs ++ [y]) eqn:R; [|exact T]. destruct (rev xs); discriminate R.
Qed.

(** Skipped whitespace matters only through the offset. *)
Lemma span_ws w l : Forall (fun c => is_ws (c_rune c) = true) w ->
  span is_ws (w ++ l) = (w ++ fst (span is_ws l), snd (span is_ws l)).
Proof.
  induction 1 as [|c w H Hw IH]; cbn; [now destruct (span is_ws l)|]. rewrite H, IH. reflexivity.
Qed.

Lemma gscan_ws w l : Forall (fun c => is_ws (c_rune c) = true) w ->
  gscan U true (w ++ l) = match gscan U true l with (k, sk, a, b) => (k, w ++ sk, a, b) end.
Proof.
  intros H. unfold gscan. rewrite (span_ws w l H). destruct (span is_ws l) as [sk [|c l']]; [reflexivity|].
  cbn [fst snd]. destruct (is_letter U (c_rune c)); [destruct (span _ l'); reflexivity|].
  destruct (is_decimal (c_rune c)); [destruct (scan_number (c :: l')) as [[? ?] ?]; reflexivity|].
  destruct (c_rune c =? 34); [destruct (scan_string false l'); reflexivity|].
  destruct (c_rune c =? 46); [|reflexivity]. destruct l' as [|d l'']; [reflexivity|].
  destruct (is_decimal (c_rune d)); [destruct (scan_frac false (d :: l'')); reflexivity|reflexivity].
Qed.

Definition add_skip (w : list chr) (x : lexeme) : lexeme := mk_lx (x_tok x) (w ++ x_skip x) (x_raw x) (x_peek x).

Lemma lex1_ws w o l : Forall (fun c => is_ws (c_rune c) = true) w ->
  lex1 (mk_ls o (w ++ l)) =
  match lex1 (mk_ls (o + clen w) l) with LexOk x s => LexOk (add_skip w x) s | LexPanic r => LexPanic r end.
Proof.
  intros H. unfold Lexer.lex1. cbn [l_rest l_off]. rewrite gscan_ws by assumption.
  destruct (gscan U true l) as [[[k sk] a] b].
  assert (Ep : o + clen (w ++ sk) = o + clen w + clen sk) by (rewrite clen_app; lia). rewrite Ep.
  unfold add_skip. destruct k; try reflexivity.
  destruct (r =? 92).
  { destruct (peek b =? 32); destruct (gscan U true b) as [[[? ?] ?] ?]; reflexivity. }
  destruct (r =? 32); [reflexivity|].
  destruct (r =? 37); [destruct (scan_comment U _ b) as [[? ?] ?]; reflexivity|].
  destruct (is_symbol_rune r); [reflexivity|]. destruct (bracket_kind r); reflexivity.
Qed.

Lemma snext_ws w o l t t' m : Forall (fun c => is_ws (c_rune c) = true) w ->
  snext U (mk_ps (mk_ls o (w ++ l)) t m) = snext U (mk_ps (mk_ls (o + clen w) l) t' m).
Proof.
  intros H. unfold snext. cbn [p_lex p_mode]. rewrite lex1_ws by assumption.
  destruct (lex1 (mk_ls (o + clen w) l)); reflexivity.
Qed.

Lemma eof_ws s s' : EofStep U s s' -> Forall (fun c => is_ws (c_rune c) = true) (l_rest s) /\
  l_off s' = l_off s + clen (l_rest s).
Proof.
  intros (x & L & K). apply lex1_split in L as (E & F & P & O & _ & Eof & _).
  destruct (Eof K) as (R & Rs & _). rewrite R, Rs in E. cbn in E. rewrite !app_nil_r in E.
  rewrite E. split; [assumption|]. rewrite O, P, R. unfold clen at 2. cbn. lia.
Qed.

(** ** Running over complete constructs *)

(** The value of the top-level loop, whatever the fuel. *)
Definition loop_val (p : pst) (r : res (list node * Z * pst)) : Prop :=
  exists n0, forall n, (n0 <= n)%nat -> parse_loop U n StopNever p = r.

Lemma loop_val_det p r r' : loop_val p r -> loop_val p r' -> r = r'.
Proof. intros (n & H) (n' & H'). rewrite <- (H (n + n')%nat), <- (H' (n + n')%nat) by lia. reflexivity. Qed.

Lemma loop_val_ex p : exists r, loop_val p r /\ r <> OutOfFuel.
Proof.
  set (n0 := (8 * plen p + 1)%nat).
  assert (NF : parse_loop U n0 StopNever p <> OutOfFuel) by (apply (parse_fuel_ok U); lia).
  exists (parse_loop U n0 StopNever p). split; [|assumption]. exists n0. intros n Hn.
  now apply (proj1 (proj2 (parse_mono U n0))).
Qed.

Lemma parse_expr_val x r : loop_val (init_parser x) r ->
  parse_expr U x = (let! (nodes, _, _) := r in Ok nodes).
Proof.
  intros V. destruct (loop_val_ex (init_parser x)) as (r' & V' & NF).
  assert (r' = r) by (eapply loop_val_det; eassumption). subst r'.
  destruct V as (n0 & V). unfold parse_expr. f_equal.
  assert (N : parse_loop U (parse_fuel x) StopNever (init_parser x) <> OutOfFuel).
  { apply (parse_fuel_ok U). pose proof (init_len x). unfold parse_fuel. lia. }
  rewrite <- (V (parse_fuel x + n0)%nat) by lia. symmetry.
  apply (proj1 (proj2 (parse_mono U _))); [lia|assumption].
Qed.

Definition prepend (ns : list node) (r : res (list node * Z * pst)) : res (list node * Z * pst) :=
  let! (ms, c, p) := r in Ok (ns ++ ms, c, p).

Lemma keep_app n ns ms : keep n ns ++ ms = keep n (ns ++ ms).
Proof. destruct n; reflexivity. Qed.

Lemma seq_val m xs ns : GSeq known_macro m xs ns -> forall p s,
  is_math (p_mode p) = m -> wf_ls (p_lex p) -> Lexes (p_lex p) xs s ->
  exists t, forall r, loop_val (mk_ps s t (p_mode p)) r -> loop_val p (prepend ns r).
Proof.
  induction 1 as [|xs n ys ns G Q IH]; intros p s M W L.
  - inversion L; subst. exists (p_tok p). intros r V. destruct p as [pl pt pm]. cbn in V |- *.
    replace (prepend [] r) with r; [assumption|]. destruct r as [[[? ?] ?]| |]; reflexivity.
  - apply Lexes_app_inv in L as (s1 & L1 & L2).
    destruct (proj1 (parse_complete U) _ _ _ _ G) as (x & xs' & -> & Run).
    inversion L1 as [|? ? sx ? ? Lx Kx Ls]; subst.
    destruct (Run (mk_ps sx (x_tok x) (p_mode p)) s1) as (t1 & n1 & Ev); auto.
    { unfold p_peek. cbn [p_lex]. symmetry. now apply lex1_split in Lx as (_ & _ & _ & _ & P & _). }
    { cbn [p_lex]. eapply lex1_wf; eassumption. }
    { exists s1. split; [assumption|reflexivity]. }
    destruct (IH (mk_ps s1 t1 (p_mode p)) s) as (t & IH'); auto.
    { cbn [p_lex]. eapply Lexes_wf; [exact W|exact L1]. }
    exists t. intros r V. destruct (IH' r V) as (n2 & V2). exists (S (n1 + n2)). intros [|k] Hk; [lia|].
    rewrite parse_loop_S, (snext_of_lex U _ _ _ Lx). cbn [bind].
    apply kind_beq_neq in Kx. rewrite Kx. cbn [negb]. cbn [stops p_tok]. cbv iota.
    rewrite (Ev k) by lia. cbn [bind p_mode]. rewrite (V2 k) by lia.
    destruct r as [[[ms c] p3]| |]; cbn [bind prepend]; [|reflexivity|reflexivity].
    now rewrite keep_app.
Qed.

(** ** Moving the input by [d] bytes *)

Variable d : Z.
Hypothesis d_nonneg : 0 <= d.

Definition move_ls (s : lstate) : lstate := mk_ls (l_off s + d) (l_rest s).
Definition move_tok (t : token) : token := mk_tok (t_kind t) (t_pos t + d) (t_text t).
Definition move_lx (x : lexeme) : lexeme := mk_lx (move_tok (x_tok x)) (x_skip x) (x_raw x) (x_peek x).

Lemma lex1_move s : lex1 (move_ls s) =
  match lex1 s with LexOk x s' => LexOk (move_lx x) (move_ls s') | LexPanic r => LexPanic r end.
Proof.
  unfold Lexer.lex1, move_ls, move_lx, move_tok. cbn [l_rest l_off].
  destruct (gscan U true (l_rest s)) as [[[k sk] a] b].
  assert (E : l_off s + d + clen sk = l_off s + clen sk + d) by lia. rewrite E.
  assert (E2 : forall z, l_off s + clen sk + d + z = l_off s + clen sk + z + d) by (intros; lia).
  destruct k; cbn [t_kind t_text t_pos x_tok x_skip x_raw x_peek l_off l_rest]; rewrite ?E2; try reflexivity.
  destruct (r =? 92).
  { destruct (peek b =? 32); destruct (gscan U true b) as [[[? ?] ?] ?];
      cbn [t_kind t_text t_pos x_tok x_skip x_raw x_peek l_off l_rest]; rewrite ?E2; reflexivity. }
  destruct (r =? 32); [reflexivity|].
  destruct (r =? 37); [destruct (scan_comment U _ b) as [[? ?] ?];
      cbn [t_kind t_text t_pos x_tok x_skip x_raw x_peek l_off l_rest]; rewrite ?E2; reflexivity|].
  destruct (is_symbol_rune r); [reflexivity|]. destruct (bracket_kind r); reflexivity.
Qed.

(** Two parser states that differ by the move; the current token is compared
    where it matters. *)
Definition plx (p p' : pst) : Prop := p_lex p' = move_ls (p_lex p) /\ p_mode p' = p_mode p.
Definition ptk (p p' : pst) : Prop := plx p p' /\ p_tok p' = move_tok (p_tok p).

Definition rrel {A} (R : A -> A -> Prop) (r r' : res A) : Prop :=
  match r, r' with
  | Ok a, Ok b => R a b
  | Panic p, Panic q => p = q
  | OutOfFuel, OutOfFuel => True
  | _, _ => False
  end.

Lemma rrel_bind {A B} (R : A -> A -> Prop) (Q : B -> B -> Prop) r r' f f' :
  rrel R r r' -> (forall a a', r = Ok a -> R a a' -> rrel Q (f a) (f' a')) -> rrel Q (bind r f) (bind r' f').
Proof. destruct r, r'; cbn; intros H K; try contradiction; auto. Qed.

Lemma rrel_impl {A} (R Q : A -> A -> Prop) r r' : rrel R r r' -> (forall a b, R a b -> Q a b) -> rrel Q r r'.
Proof. destruct r, r'; cbn; auto. Qed.

Lemma snext_move p p' : plx p p' ->
  rrel (fun a b => fst b = fst a /\ ptk (snd a) (snd b)) (snext U p) (snext U p').
Proof.
  intros (L & M). unfold snext. rewrite L, lex1_move. destruct (lex1 (p_lex p)) as [x s|r]; [|reflexivity].
  cbn. repeat split; auto.
Qed.

Lemma pnext_move p p' : plx p p' ->
  rrel (fun a b => t_kind (fst b) = t_kind (fst a) /\ t_text (fst b) = t_text (fst a) /\
        (t_kind (fst a) <> KEOF -> fst b = move_tok (fst a)) /\ ptk (snd a) (snd b)) (pnext U p) (pnext U p').
Proof.
  intros H. unfold pnext. eapply rrel_bind; [now apply snext_move|].
  intros [ok p1] [ok' p1'] E (E1 & T). cbn in E1, T. subst ok'. destruct T as (X & Y).
  destruct ok; cbn; [rewrite Y; repeat split; auto; apply X|repeat split; auto; try apply X; congruence].
Qed.

Lemma expect_move v p p' : plx p p' -> rrel ptk (expect U v p) (expect U v p').
Proof.
  intros H. unfold expect. eapply rrel_bind; [now apply pnext_move|].
  intros [t p1] [t' p1'] E (_ & _ & _ & T). cbn in T. destruct T as (X & Y). rewrite Y.
  unfold move_tok. cbn [t_text]. destruct (String.eqb _ _); cbn; [split; assumption|reflexivity].
Qed.

Definition offp (p : pst) : Z := l_off (p_lex p).

Lemma snext_off p ok p1 : snext U p = Ok (ok, p1) ->
  offp p <= offp p1 /\ (ok = true -> wf_ls (p_lex p) -> offp p <= t_pos (p_tok p1) < offp p1).
Proof.
  unfold snext, offp. destruct (lex1 (p_lex p)) as [x s|] eqn:L; [|discriminate].
  intros E. injection E as <- <-. cbn [p_lex p_tok].
  pose proof (clen_nonneg (x_skip x)). pose proof (clen_nonneg (x_raw x)).
  assert (W' : wf_ls (p_lex p) -> kind_beq (t_kind (x_tok x)) KEOF = false -> 0 < clen (x_raw x)).
  { intros W K. apply kind_beq_neq in K. apply lex1_split in L as (E & _ & _ & _ & _ & _ & Ne). specialize (Ne K).
    destruct (x_raw x) as [|c l] eqn:Er; [contradiction|].
    unfold wf_ls in W. rewrite E in W. rewrite !Forall_app in W. destruct W as (_ & W & _). inversion W; subst.
    destruct H3 as (Hr & _). unfold clen. cbn [raw_of]. rewrite zlen_app. pose proof (zlen_nonneg (raw_of l)).
    assert (0 < zlen (c_raw c)) by now apply zlen_pos. lia. }
  apply lex1_split in L as (_ & _ & P & O & _). split; [lia|]. intros K W.
  specialize (W' W). destruct (kind_beq _ _); [discriminate|]. specialize (W' eq_refl). lia.
Qed.

Lemma snext_wf p ok p1 : wf_ls (p_lex p) -> snext U p = Ok (ok, p1) -> wf_ls (p_lex p1).
Proof.
  unfold snext. intros W. destruct (lex1 (p_lex p)) as [x s|] eqn:L; [|discriminate].
  intros E. injection E as _ <-. cbn. eapply lex1_wf; eassumption.
Qed.

(** What is known of a result: the state moved on, and is well formed. *)
Definition adv (p a : pst) : Prop := offp p <= offp a /\ wf_ls (p_lex a).

Definition RN (p : pst) (a b : node * pst) : Prop :=
  fst b = shift d (fst a) /\ plx (snd a) (snd b) /\ adv p (snd a).
Definition RL (p : pst) (a b : list node * Z * pst) : Prop :=
  match a, b with
  | (ns, r, q), (ns', r', q') => ns' = map (shift d) ns /\ r' = shift_close d r /\ plx q q' /\ adv p q
  end.
Definition RA (p : pst) (a b : list node * pst) : Prop :=
  fst b = map (shift d) (fst a) /\ plx (snd a) (snd b) /\ adv p (snd a).

Lemma adv_refl p : wf_ls (p_lex p) -> adv p p.
Proof. split; [lia|assumption]. Qed.
Lemma adv_trans p q r : adv p q -> adv q r -> adv p r.
Proof. unfold adv. intuition lia. Qed.

Lemma expect_adv v p p1 : wf_ls (p_lex p) -> expect U v p = Ok p1 -> adv p p1.
Proof.
  unfold expect, pnext. intros W H. apply bind_ok in H as ((t & p2) & H & E).
  apply bind_ok in H as ((ok & p3) & H & E2).
  pose proof (snext_off _ _ _ H) as [O _]. pose proof (snext_wf _ _ _ W H) as W3.
  destruct ok; injection E2 as <- <-; destruct (String.eqb _ _); try discriminate; injection E as <-; split; assumption.
Qed.

Lemma pnext_adv p t p1 : wf_ls (p_lex p) -> pnext U p = Ok (t, p1) -> adv p p1.
Proof.
  unfold pnext. intros W H. apply bind_ok in H as ((ok & p3) & H & E2).
  pose proof (snext_off _ _ _ H) as [O _]. pose proof (snext_wf _ _ _ W H) as W3.
  destruct ok; injection E2 as <- <-; split; assumption.
Qed.

Lemma p_peek_move p p' : plx p p' -> p_peek p' = p_peek p.
Proof. intros (L & _). unfold p_peek. now rewrite L. Qed.

Lemma map_keep n l : map (shift d) (keep n l) = keep (shift d n) (map (shift d) l).
Proof. destruct n; reflexivity. Qed.

Lemma parse_move n :
  (forall tok tok' p p', ptk p p' -> t_kind tok' = t_kind tok -> t_text tok' = t_text tok ->
     (t_kind tok <> KEOF -> t_pos tok' = t_pos tok + d) -> 0 < offp p -> wf_ls (p_lex p) ->
     rrel (RN p) (parse_node U n tok p) (parse_node U n tok' p')) /\
  (forall st p p', plx p p' -> (st <> StopNever -> 0 < offp p) -> 0 <= offp p -> wf_ls (p_lex p) ->
     rrel (RL p) (parse_loop U n st p) (parse_loop U n st p')) /\
  (forall p p', plx p p' -> 0 < offp p -> wf_ls (p_lex p) ->
     rrel (RN p) (parse_script U n p) (parse_script U n p')) /\
  (forall sig p p', plx p p' -> 0 < offp p -> wf_ls (p_lex p) ->
     rrel (RA p) (parse_args U n sig p) (parse_args U n sig p')).
Proof.
  induction n as [|n (IHn & IHl & IHs & IHa)]; [repeat split; intros; exact I|].
  assert (Leaf : forall p p' a b, ptk p p' -> wf_ls (p_lex p) -> b = shift d a -> RN p (a, p) (b, p')).
  { intros p p' a b (L & T) W ->. repeat split; auto; try apply L; cbn; lia. }
  repeat split.
  - (* node *)
    intros tok tok' p p' T K Tx Po O W. rewrite !parse_node_S. rewrite K, Tx.
    destruct (t_kind tok) eqn:Ek.
    all: try (exact eq_refl).
    all: try (apply Leaf; auto; cbn [shift]; rewrite Po by congruence; reflexivity).
    + (* macro *)
      destruct (lookup_macro (t_text tok)) as [[sig|]|]; try reflexivity.
      eapply rrel_bind; [apply IHa; [apply T|assumption|assumption]|].
      intros [args q] [args' q'] E (A & B & C). cbn in A, B, C. subst args'. cbn.
      destruct T as (L & Tk). rewrite Tk. repeat split; auto; try apply B; try apply C.
    + (* space *)
      pose proof T as (L & Tk). rewrite (proj2 L). destruct (p_mode p).
      * apply Leaf; auto. cbn [shift]. rewrite Po by congruence. reflexivity.
      * apply Leaf; auto.
    + (* symbol *)
      destruct T as (L & Tk).
      destruct (String.eqb (t_text tok) "$").
      { eapply rrel_bind.
        { apply (IHl (StopText "$") (set_mode MathMode p) (set_mode MathMode p')).
          - destruct L as (L1 & L2). split; [exact L1|reflexivity].
          - intros _. exact O.
          - unfold offp in *; cbn; lia.
          - exact W. }
        intros [[ns r] q] [[ns' r'] q'] E (A & B & C & D). cbn. subst.
        rewrite Po by congruence. destruct L as (L1 & L2).
        repeat split; auto; try apply C; try apply D; try (unfold set_mode; cbn; exact L2). }
      destruct (String.eqb (t_text tok) "^").
      { eapply rrel_bind; [now apply IHs|].
        intros [x q] [x' q'] E (A & B & C). cbn in A, B, C |- *. subst. rewrite Po by congruence.
        repeat split; auto; try apply B; try apply C. }
      destruct (String.eqb (t_text tok) "_").
      { eapply rrel_bind; [now apply IHs|].
        intros [x q] [x' q'] E (A & B & C). cbn in A, B, C |- *. subst. rewrite Po by congruence.
        repeat split; auto; try apply B; try apply C. }
      apply Leaf; [split; assumption|assumption|]. cbn [shift]. rewrite Po by congruence. reflexivity.
    + (* brace *)
      destruct T as (L & Tk). rewrite (proj2 L). destruct (p_mode p); [reflexivity|].
      eapply rrel_bind; [apply (IHl (StopKind KRbrace)); auto; lia|].
      intros [[ns r] q] [[ns' r'] q'] E (A & B & C & D). cbn. subst.
      repeat split; auto; try apply C; try apply D.
  - (* loop *)
    intros st p p' L St O W. rewrite !parse_loop_S.
    eapply rrel_bind; [now apply snext_move|].
    intros [ok p1] [ok' p1'] E (E1 & T). cbn in E1, T. subst ok'.
    pose proof (snext_off _ _ _ E) as [O1 O2]. pose proof (snext_wf _ _ _ W E) as W1.
    destruct ok; [|cbn; repeat split; auto; try apply T].
    specialize (O2 eq_refl W). destruct T as (L1 & Tk). rewrite Tk.
    replace (stops st (move_tok (p_tok p1))) with (stops st (p_tok p1)) by (destruct st; reflexivity).
    destruct (stops st (p_tok p1)) eqn:Es.
    { cbn. repeat split; auto; try apply L1. unfold shift_close.
      assert (st <> StopNever) by (intros ->; discriminate Es). specialize (St H).
      replace (t_pos (p_tok p1) =? 0) with false by lia. reflexivity. }
    eapply rrel_bind.
    { apply (IHn (p_tok p1) (move_tok (p_tok p1)) p1 p1'); auto; [split; assumption|lia]. }
    intros [x q] [x' q'] Ex (A & B & C). cbn in A, B, C. subst x'.
    eapply rrel_bind.
    { apply (IHl st q q'); auto; [|destruct C; lia|apply C]. intros _. destruct C; lia. }
    intros [[ns r] u] [[ns' r'] u'] Eu (A2 & B2 & C2 & D2). subst. cbn.
    repeat split; auto; try apply C2; try apply D2.
    + now rewrite map_keep.
    + destruct D2, C. lia.
  - (* script *)
    intros p p' L O W. rewrite !parse_script_S, (p_peek_move _ _ L).
    destruct (p_peek p =? 123).
    + eapply rrel_bind; [now apply expect_move|].
      intros p1 p1' E (L1 & T1). pose proof (expect_adv _ _ _ W E) as Ad.
      eapply rrel_bind; [apply (IHl (StopKind KRbrace) p1 p1'); auto; destruct Ad; first [assumption | lia | intros _; lia]|].
      intros [[ns r] u] [[ns' r'] u'] Eu (A2 & B2 & C2 & D2). subst. cbn.
      repeat split; auto; try apply C2; try apply D2. destruct D2, Ad; cbn; lia.
    + eapply rrel_bind; [now apply pnext_move|].
      intros [t p1] [t' p1'] E (K & Tx & Po & T). cbn in K, Tx, Po, T.
      pose proof (pnext_adv _ _ _ W E) as Ad.
      eapply rrel_impl; [apply IHn; auto; try (intros X; rewrite (Po X); reflexivity); destruct Ad; lia || assumption|].
      intros a b (A & B & C). repeat split; auto; try apply B; try apply C. destruct C, Ad; lia.
  - (* args *)
    intros sig p p' L O W. rewrite !parse_args_S. destruct sig as [|c sig]; [repeat split; auto; try apply L; cbn; lia|].
    destruct (sig_cases c) as [-> | [-> | [N1 N2]]].
    + eapply rrel_bind; [now apply expect_move|].
      intros p1 p1' E (L1 & T1). pose proof (expect_adv _ _ _ W E) as Ad.
      eapply rrel_bind; [apply (IHl (StopKind KRbrace) p1 p1'); auto; destruct Ad; first [assumption | lia | intros _; lia]|].
      intros [[ns r] u] [[ns' r'] u'] Eu (A2 & B2 & C2 & D2). subst.
      eapply rrel_bind; [apply (IHa sig u u'); auto; destruct D2, Ad; lia || assumption|].
      intros [args q] [args' q'] E2 (A & B & C). cbn in A, B, C |- *. subst. rewrite T1.
      repeat split; auto; try apply B; try apply C. destruct C, D2, Ad; cbn; lia.
    + rewrite (p_peek_move _ _ L). destruct (p_peek p =? 91); [|now apply IHa].
      eapply rrel_bind; [now apply expect_move|].
      intros p1 p1' E (L1 & T1). pose proof (expect_adv _ _ _ W E) as Ad.
      eapply rrel_bind; [apply (IHl (StopKind KRbrack) p1 p1'); auto; destruct Ad; first [assumption | lia | intros _; lia]|].
      intros [[ns r] u] [[ns' r'] u'] Eu (A2 & B2 & C2 & D2). subst.
      eapply rrel_bind; [apply (IHa sig u u'); auto; destruct D2, Ad; lia || assumption|].
      intros [args q] [args' q'] E2 (A & B & C). cbn in A, B, C |- *. subst. rewrite T1.
      repeat split; auto; try apply B; try apply C. destruct C, D2, Ad; cbn; lia.
    + rewrite !ascii_match by assumption. now apply IHa.
Qed.

Lemma loop_val_move p p' r r' : plx p p' -> 0 <= offp p -> wf_ls (p_lex p) ->
  loop_val p r -> loop_val p' r' -> rrel (RL p) r r'.
Proof.
  intros L O W (n & V) (n' & V'). rewrite <- (V (n + n')%nat), <- (V' (n + n')%nat) by lia.
  apply parse_move; auto. intros X; congruence.
Qed.

End Lexing.

(** ** The theorem *)

Section Main.
Variable U : Z -> bool.

Lemma first_rune_chars b : b <> "" -> exists l, chars b = mk_chr (fst (decode_rune b)) (stake (snd (decode_rune b)) b) :: l.
Proof. intros H. rewrite chars_step by assumption. eauto. Qed.

Lemma init_no_bom b : fst (decode_rune b) <> BOM -> init_lex b = mk_ls 0 (chars b).
Proof.
  intros H. unfold init_lex. destruct b as [|c b]; [reflexivity|].
  destruct (first_rune_chars (String c b)) as (l & ->); [discriminate|]. cbn [c_rune].
  destruct (Z.eqb_spec (fst (decode_rune (String c b))) BOM); [contradiction|reflexivity].
Qed.

Lemma init_app a b : first_byte_ok b -> fst (decode_rune b) <> BOM ->
  init_lex (append a b) = mk_ls (l_off (init_lex a)) (l_rest (init_lex a) ++ chars b).
Proof.
  intros F B. unfold init_lex at 1. rewrite chars_app by assumption.
  destruct a as [|c a].
  - cbn [chars String.length chars_fuel app append]. pose proof (init_no_bom b B) as E. unfold init_lex in E. cbn.
    rewrite E. reflexivity.
  - unfold init_lex. destruct (first_rune_chars (String c a)) as (l & E); [discriminate|]. rewrite E. cbn [app c_rune].
    destruct (_ =? BOM); reflexivity.
Qed.

Lemma tokens_total x : (forall xs, ~ Tokens U x xs) \/ exists xs, Tokens U x xs.
Proof.
  destruct (lex_total U (init_lex x)) as [(xs & s' & R)|(xs & s' & r & L & P)].
  - right. exists xs. now exists s'.
  - left. intros ys (s & t & L' & E). destruct E as (y & E & K).
    revert L'. generalize ys. induction L as [s0|s0 z s1 xs s2 Lz Kz Ls IH]; intros zs L'.
    + inversion L'; subst; congruence.
    + inversion L'; subst; [congruence|]. rewrite Lz in H. injection H as <- <-. eapply IH; eassumption.
Qed.

Lemma lexes_end s xs s1 : Lexes U s xs s1 ->
  (forall x xr, rev xs = x :: xr -> xp x + clen (x_raw x) = l_off s1) /\
  l_off s + clen (l_rest s) = l_off s1 + clen (l_rest s1).
Proof.
  induction 1 as [|s0 y s2 xs0 s3 Ly Ky Ls [IH1 IH2]]; [split; [discriminate|reflexivity]|]. split.
  - intros x xr Rx. cbn [rev] in Rx. destruct (rev xs0) as [|z zs] eqn:Rz.
    + apply (f_equal (@rev _)) in Rz. rewrite rev_involutive in Rz. cbn in Rz. subst xs0.
      injection Rx as <- _. inversion Ls; subst. apply lex1_split in Ly as (_ & _ & _ & O & _). unfold xp. lia.
    + cbn in Rx. injection Rx as <- <-. eapply IH1. reflexivity.
  - rewrite <- IH2. apply lex1_split in Ly as (E1 & _ & P & O & _). rewrite E1, !clen_app. lia.
Qed.

Lemma lexes_total_len a xs s1 : Lexes U (init_lex a) xs s1 -> l_off s1 + clen (l_rest s1) = zlen a.
Proof.
  intros L. destruct (init_lex_source a) as (bom & Ea & Ob & _). apply lexes_end in L as [_ L]. rewrite <- L, Ob.
  apply (f_equal zlen) in Ea. rewrite zlen_app in Ea. unfold clen. lia.
Qed.

Theorem parse_app a b ns :
  Complete U a ns -> Cut U a b ->
  parse_expr U (append a b) =
  match parse_expr U b with
  | Ok ms => Ok (ns ++ map (shift (zlen a)) ms)
  | Panic q => Panic q
  | OutOfFuel => OutOfFuel
  end.
Proof.
  intros (xs & T & Q) (F & B & C). specialize (C xs T).
  destruct T as (s' & s1 & L & E).
  pose proof (init_lex_wf a) as Wa.
  destruct (eof_ws U _ _ E) as (Ws & Off).
  assert (Len : l_off s1 + clen (l_rest s1) = zlen a).
  { destruct (init_lex_source a) as (bom & Ea & Ob & _).
    assert (Lo : forall s xs s1, Lexes U s xs s1 -> l_off s + clen (l_rest s) = l_off s1 + clen (l_rest s1)).
    { induction 1 as [|s0 x s2 xs0 s3 Lx Kx Ls IH]; [reflexivity|]. rewrite <- IH.
      apply lex1_split in Lx as (E1 & _ & P & O & _). rewrite E1, !clen_app. lia. }
    rewrite <- (Lo _ _ _ L). rewrite Ob. apply (f_equal zlen) in Ea. rewrite zlen_app in Ea. unfold clen. lia. }
  pose proof (init_app a b F B) as Ia.
  assert (L' : Lexes U (init_lex (append a b)) (setpk (peek (l_rest s1 ++ chars b)) xs)
                 (mk_ls (l_off s1) (l_rest s1 ++ chars b))).
  { rewrite Ia. apply Lexes_tail; [assumption|exact Wa|]. intros Er.
    destruct b as [|c b]; [exact I|].
    destruct (first_rune_chars (String c b)) as (l & ->); [discriminate|]. cbn [c_rune].
    specialize (C ltac:(discriminate)). destruct (rev xs) as [|x xr] eqn:Rx; [exact I|].
    destruct C as [C|C]; [|exact C]. exfalso. unfold ends_ws in C. rewrite Rx in C.
    assert (Lx : xp x + clen (x_raw x) = l_off s1).
    { clear -L Rx. revert x xr Rx. induction L as [|s0 y s2 xs0 s3 Ly Ky Ls IH]; intros x xr Rx; [discriminate|].
      cbn [rev] in Rx. destruct (rev xs0) as [|z zs] eqn:Rz.
      - apply (f_equal (@rev _)) in Rz. rewrite rev_involutive in Rz. cbn in Rz. subst xs0.
        injection Rx as <- _. inversion Ls; subst. apply lex1_split in Ly as (_ & _ & _ & O & _). unfold xp. lia.
      - cbn in Rx. injection Rx as <- <-. eapply IH. reflexivity. }
    rewrite Er in Len. unfold clen at 1 in Len. cbn in Len. lia. }
  assert (Wab : wf_ls (init_lex (append a b))) by apply init_lex_wf.
  destruct (seq_val U false _ _ (GSeq_setpk _ _ _ _ Q) (init_parser (append a b)) _ eq_refl Wab L') as (t & V).
  cbn [p_mode init_parser] in V.
  destruct (loop_val_ex U (init_parser b)) as (rb & Vb & NF).
  destruct (loop_val_ex U (mk_ps (mk_ls (l_off s1) (l_rest s1 ++ chars b)) t Normal)) as (r & Vr & _).
  rewrite (parse_expr_val U _ _ (V _ Vr)), (parse_expr_val U _ _ Vb).
  (* the state after [a] behaves like the moved initial state of [b] *)
  assert (Vr' : loop_val U (mk_ps (mk_ls (zlen a) (chars b)) t Normal) r).
  { destruct Vr as (n0 & Vr). exists (S n0). intros [|n] Hn; [lia|].
    rewrite <- (Vr (S n)) by lia. rewrite !parse_loop_S. rewrite <- Len.
    rewrite <- (snext_ws U (l_rest s1) (l_off s1) (chars b) t t Normal Ws). reflexivity. }
  assert (R : rrel (RL (zlen a) (init_parser b)) rb r).
  { eapply loop_val_move; [| | |exact Vb|exact Vr'].
    - split; [|reflexivity]. cbn [p_lex init_parser]. rewrite (init_no_bom b B). unfold move_ls. cbn. f_equal; lia.
    - apply init_off_nonneg.
    - apply init_lex_wf. }
  destruct rb as [[[ms c] pb]|q|], r as [[[ms' c'] pb']|q'|]; cbn in R; try contradiction; cbn.
  - destruct R as (-> & _). reflexivity.
  - now subst.
Qed.

(** A complete document parses to its nodes. *)
Lemma GSeq_doc xs ns : GSeq known_macro false xs ns -> GDoc known_macro xs ns.
Proof.
  induction 1 as [|xs n ys ns G Q IH]; [constructor|].
  destruct xs as [|x xs]; [inversion G|]. cbn [app].
  eapply L_node; [|exact G| |exact IH]; [cbn; tauto|discriminate].
Qed.

Lemma complete_parse a ns : Complete U a ns -> parse_expr U a = Ok ns.
Proof. intros (xs & T & Q). eapply parse_expr_complete; [exact T|]. now apply GSeq_doc. Qed.
End Main.
