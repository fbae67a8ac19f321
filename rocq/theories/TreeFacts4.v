(** Positions and extents of the nodes of a parsed tree. *)
From Coq Require Import ZArith String Ascii List Bool Lia ZifyBool.
From Verif Require Import Utf8 GoScanner Token Lexer Ast MacroTable SymTable Parser
  Utf8Facts LexFacts LexText Grammar Stream ParserFacts GrammarFacts TreeSpec TreeFacts TreeFacts2 TreeFacts3.
Import ListNotations.
Local Open Scope string_scope.
Local Open Scope list_scope.
Local Open Scope Z_scope.

(** Token texts are not longer than their extents. *)
Definition fits (xs : list lexeme) : Prop :=
  Forall (fun l => xk l <> KComment -> 0 < zlen (xt l) <= clen (x_raw l)) xs.

Lemma LexAt_fits U x l : LexAt U x l -> xk l <> KComment -> 0 < zlen (xt l) <= clen (x_raw l).
Proof.
  intros (_ & s & s' & W & L & NE) NC.
  pose proof (lex1_text _ _ _ _ W L NC) as T. fold (xk l) (xt l) in T.
  pose proof (lex1_split _ _ _ _ L) as (Sp & _ & _ & _ & _ & _ & N). specialize (N NE).
  unfold wf_ls in W. rewrite Sp in W. apply Forall_app in W as [_ W].
  apply Forall_app in W as [W _].
  assert (P : 0 < clen (x_raw l)).
  { destruct (x_raw l) as [|c r]; [easy|]. inv W. destruct H1 as (H1 & _).
    unfold clen. cbn [raw_of]. rewrite zlen_app. pose proof (zlen_pos _ H1).
    pose proof (zlen_nonneg (raw_of r)). lia. }
  destruct (kind_beq (xk l) KMacro) eqn:K.
  - apply kind_beq_eq in K. rewrite K in T.
    destruct T as (bs & sk & nm & R & B & F & T).
    rewrite T. change (append "\" (raw_of nm)) with (String "\" (raw_of nm)).
    unfold clen. rewrite R. cbn [raw_of]. rewrite R in W. inv W.
    destruct H1 as (H1 & _). pose proof (zlen_pos _ H1).
    rewrite zlen_app, raw_of_app, zlen_app.
    change (String "\" (raw_of nm)) with (append "\" (raw_of nm)). rewrite zlen_app.
    change (zlen "\") with 1.
    pose proof (zlen_nonneg (raw_of nm)). pose proof (zlen_nonneg (raw_of sk)). lia.
  - apply kind_beq_neq in K.
    assert (T' : xt l = raw_of (x_raw l)) by (destruct (xk l); try exact T; contradiction).
    rewrite T'. unfold clen in *. lia.
Qed.

Lemma Tokens_fits U x xs : Tokens U x xs -> fits xs.
Proof.
  intros H. apply Tokens_at in H. eapply Forall_impl; [|exact H]. intros l. apply LexAt_fits.
Qed.

(** End offset of a token sequence. *)
Fixpoint hi (a : Z) (xs : list lexeme) : Z :=
  match xs with [] => a | x :: xs' => hi (xp x + clen (x_raw x)) xs' end.

Lemma hi_app a xs ys : hi a (xs ++ ys) = hi (hi a xs) ys.
Proof. revert a; induction xs; cbn; auto. Qed.

Lemma hi_ge a xs : ordered_from a xs -> a <= hi a xs.
Proof.
  revert a; induction xs as [|x xs IH]; cbn; intros a H; [lia|].
  destruct H as (H1 & H2 & H3). apply IH in H3. lia.
Qed.

Lemma ordered_app2 a xs ys :
  ordered_from a (xs ++ ys) -> ordered_from a xs /\ ordered_from (hi a xs) ys.
Proof.
  revert a; induction xs as [|x xs IH]; cbn; intros a H; [auto|].
  destruct H as (H1 & H2 & H3). apply IH in H3 as (A & B). auto.
Qed.

(** A node lies in the extent [a, b). *)
Definition inr (a : Z) (n : node) (b : Z) : Prop :=
  (forall p, real_pos n p -> a <= p < b) /\
  (forall e, real_end n e -> a < e <= b) /\
  (forall p e, real_pos n p -> real_end n e -> p < e) /\
  (forall q t, In (q, t) (tree_tokens n) -> a <= q < b) /\
  (forall p q t, real_pos n p -> In (q, t) (tree_tokens n) -> p <= q).

Fixpoint within (a : Z) (ns : list node) (b : Z) : Prop :=
  match ns with
  | [] => a <= b
  | n :: ns' => exists c, a <= c /\ inr a n c /\ within c ns' b
  end.

Lemma inr_weaken a b a' b' n : a' <= a -> b <= b' -> inr a n b -> inr a' n b'.
Proof.
  intros A B (H1 & H2 & H3 & H4 & H5). repeat split; eauto.
  - apply H1 in H. lia.
  - apply H1 in H. lia.
  - apply H2 in H. lia.
  - apply H2 in H. lia.
  - apply H4 in H. lia.
  - apply H4 in H. lia.
Qed.

Lemma within_weaken a b a' b' ns : a' <= a -> b <= b' -> within a ns b -> within a' ns b'.
Proof.
  revert a a'; induction ns as [|n ns IH]; cbn; intros a a' A B H; [lia|].
  destruct H as (c & C & I & W). exists c. split; [lia|]. split; [|eapply IH; eauto; lia].
  eapply inr_weaken; [| |exact I]; lia.
Qed.

Lemma within_le a ns b : within a ns b -> a <= b.
Proof.
  revert a; induction ns as [|n ns IH]; cbn; intros a H; [assumption|].
  destruct H as (c & C & _ & W). apply IH in W. lia.
Qed.

Lemma within_app a ns b ns' c : within a ns b -> within b ns' c -> within a (ns ++ ns') c.
Proof.
  revert a; induction ns as [|n ns IH]; cbn; intros a H H'.
  - eapply within_weaken; [| |exact H']; lia.
  - destruct H as (d & C & I & W). exists d. auto.
Qed.

Lemma within_In a ns b n : within a ns b -> In n ns -> exists a' b', a <= a' /\ b' <= b /\ inr a' n b'.
Proof.
  revert a; induction ns as [|m ns IH]; cbn; intros a H []; destruct H as (c & C & I & W).
  - subst. exists a, c. apply within_le in W. split; [lia|split; [lia|assumption]].
  - apply (IH _ W) in H0 as (a' & b' & ? & ? & ?). exists a', b'. split; [lia|auto].
Qed.

Lemma within_siblings a ns b : within a ns b -> siblings_ordered ns.
Proof.
  revert a; induction ns as [|m ns IH]; cbn; intros a H; [auto|]. destruct H as (c & C & I & W).
  destruct I as (I1 & I2 & I3 & I4). repeat split; eauto.
  - intros y p q Hy P Q. apply (within_In _ _ _ _ W) in Hy as (a' & b' & A & B & J & _).
    apply I1 in P. apply J in Q. lia.
  - intros y e q Hy P Q. apply (within_In _ _ _ _ W) in Hy as (a' & b' & A & B & J & _).
    apply I2 in P. apply J in Q. lia.
Qed.

Lemma within_tokens a ns b q t : within a ns b -> In (q, t) (flat_map tree_tokens ns) -> a <= q < b.
Proof.
  intros W H. apply in_flat_map in H as (n & Hn & H).
  apply (within_In _ _ _ _ W) in Hn as (a' & b' & A & B & _ & _ & _ & J & _). apply J in H. lia.
Qed.

(** Pos and End of lists. *)
Fixpoint last_end (l : list node) : option Z :=
  match l with [] => None | [x] => node_end x | _ :: l' => last_end l' end.

Lemma node_end_list l : l <> [] -> node_end (NList l) = last_end l.
Proof.
  destruct l as [|x l]; [congruence|]. intros _. revert x; induction l as [|y l IH]; intros x; [reflexivity|].
  specialize (IH y). cbn in *. rewrite IH. reflexivity.
Qed.

Lemma node_end_macro nm l : l <> [] -> node_end (NMacro nm l) = last_end l.
Proof.
  intros H. rewrite <- node_end_list by assumption. destruct l; [congruence|reflexivity].
Qed.

Lemma last_end_in a l b e : within a l b -> last_end l = Some e -> e <> -1 -> e <> 0 ->
  a < e <= b /\ (forall p, match l with x :: _ => real_pos x p | [] => False end -> p < e).
Proof.
  revert a; induction l as [|x l IH]; intros a W E N1 N2; [discriminate|].
  destruct W as (c & C & I & W). destruct l as [|y l].
  - destruct I as (I1 & I2 & I3 & _). cbn in E, W. split.
    + specialize (I2 e (conj E (conj N1 N2))). lia.
    + intros p P. eapply I3; eauto. unfold real_end; auto.
  - destruct (IH c W E N1 N2) as (J1 & _). split; [lia|].
    intros p P. destruct I as (I1 & _). apply I1 in P. lia.
Qed.

Lemma inr_list a l b : within a l b -> inr a (NList l) b.
Proof.
  intros W. assert (P : forall p, real_pos (NList l) p -> exists x l', l = x :: l' /\ real_pos x p).
  { intros p [P N]. destruct l as [|x l']; [cbn in P; congruence|]. exists x, l'. split; [auto|split; auto]. }
  assert (E : forall e, real_end (NList l) e -> last_end l = Some e /\ e <> -1 /\ e <> 0).
  { intros e (E & N1 & N2). destruct l as [|x l']; [cbn in E; congruence|].
    rewrite node_end_list in E by discriminate. auto. }
  repeat split.
  - destruct (P _ H) as (x & l' & -> & R). destruct (within_In _ _ _ x W) as (a' & b' & A & B & J & _); [cbn; auto|].
    apply J in R. lia.
  - destruct (P _ H) as (x & l' & -> & R). destruct (within_In _ _ _ x W) as (a' & b' & A & B & J & _); [cbn; auto|].
    apply J in R. lia.
  - destruct (E _ H) as (L & N1 & N2). apply (last_end_in _ _ _ _ W) in L as (L & _); [|assumption|assumption]. lia.
  - destruct (E _ H) as (L & N1 & N2). apply (last_end_in _ _ _ _ W) in L as (L & _); [|assumption|assumption]. lia.
  - intros p e Hp He. destruct (E _ He) as (L & N1 & N2). destruct (P _ Hp) as (x & l' & -> & R).
    apply (last_end_in _ _ _ _ W) in L as (_ & L); [|assumption|assumption]. auto.
  - cbn in H. apply (within_tokens _ _ _ _ _ W) in H. lia.
  - cbn in H. apply (within_tokens _ _ _ _ _ W) in H. lia.
  - intros p q t Hp Hq. destruct (P _ Hp) as (x & l' & -> & R). cbn in Hq.
    destruct W as (c & C & I & W). apply in_app_or in Hq as [Hq|Hq].
    + eapply I; eauto.
    + apply (within_tokens _ _ _ _ _ W) in Hq. apply I in R. lia.
Qed.

(** All nodes of a tree. *)
Definition extent_ok (n : node) : Prop :=
  (forall p e, real_pos n p -> real_end n e -> p < e) /\
  (forall p q t, real_pos n p -> In (q, t) (tree_tokens n) -> p <= q) /\
  siblings_ordered (list_children n).
Definition all_ext (ns : list node) : Prop := forall n, In n (flat_map subnodes ns) -> extent_ok n.

Lemma all_ext_nil : all_ext []. Proof. intros n []. Qed.
Lemma all_ext_cons n ns : all_ext [n] -> all_ext ns -> all_ext (n :: ns).
Proof.
  intros A B x Hx. cbn in Hx. apply in_app_or in Hx as [Hx|Hx]; [|auto].
  apply A. cbn. now rewrite app_nil_r.
Qed.
Lemma all_ext_keep n ns : all_ext [n] -> all_ext ns -> all_ext (keep n ns).
Proof. intros A B. destruct n; cbn [keep]; auto; now apply all_ext_cons. Qed.

Lemma ident_ext p t : 0 < zlen t -> extent_ok (NIdent p t).
Proof.
  intros H. repeat split; cbn; auto.
  - intros p' e [P _] (E & _). cbn in *. inv P. inv E. lia.
  - intros p' q s [P _] [E|[]]. cbn in P. inv P. inv E. lia.
Qed.

Lemma all_ext_node a b n ns :
  (forall x, In x (subnodes n) -> x = n \/ In x (flat_map subnodes ns) \/
     exists p t, x = NIdent p t /\ 0 < zlen t) ->
  inr a n b -> siblings_ordered (list_children n) -> all_ext ns -> all_ext [n].
Proof.
  intros H I S A x Hx. cbn in Hx. rewrite app_nil_r in Hx.
  apply H in Hx as [->|[Hx|(p & t & -> & P)]]; [|auto|now apply ident_ext].
  destruct I as (I1 & I2 & I3 & I4 & I5). repeat split; eauto.
Qed.

Lemma inr_leaf a x n :
  node_pos n = Some (xp x) -> node_end n = Some (xp x + zlen (xt x)) ->
  (forall q t, In (q, t) (tree_tokens n) -> q = xp x) ->
  a <= xp x -> 0 < zlen (xt x) <= clen (x_raw x) ->
  inr a n (xp x + clen (x_raw x)).
Proof.
  intros P E T A F. repeat split.
  - destruct H as [H _]. rewrite P in H. inv H. lia.
  - destruct H as [H _]. rewrite P in H. inv H. lia.
  - destruct H as [H _]. rewrite E in H. inv H. lia.
  - destruct H as [H _]. rewrite E in H. inv H. lia.
  - intros p e [Hp _] [He _]. rewrite P in Hp. rewrite E in He. inv Hp. inv He. lia.
  - apply T in H. lia.
  - apply T in H. lia.
  - intros p q t [Hp _] H. apply T in H. rewrite P in Hp. inv Hp. lia.
Qed.

(** A delimited group. *)
Lemma inr_group a x xs n ns r t1 t2 :
  node_pos n = Some (xp x) -> node_end n = Some r ->
  tree_tokens n = t1 ++ flat_map tree_tokens ns ++ t2 ->
  (forall q t, In (q, t) t1 -> q = xp x) -> (forall q t, In (q, t) t2 -> q = r /\ r <> 0) ->
  a <= xp x -> 0 < clen (x_raw x) -> within (xp x + clen (x_raw x)) ns (hi (xp x + clen (x_raw x)) xs) ->
  (r <> 0 -> xp x + clen (x_raw x) <= r < hi (xp x + clen (x_raw x)) xs) ->
  inr a n (hi a (x :: xs)).
Proof.
  intros P E T T1 T2 A F W R. cbn [hi]. pose proof (within_le _ _ _ W).
  assert (Tk : forall q t, In (q, t) (tree_tokens n) -> xp x <= q < hi (xp x + clen (x_raw x)) xs).
  { intros q t. rewrite T. intros H'. apply in_app_or in H' as [H'|H']; [apply T1 in H'; lia|].
    apply in_app_or in H' as [H'|H']; [apply (within_tokens _ _ _ _ _ W) in H'; lia|].
    apply T2 in H' as [-> H']. apply R in H'. lia. }
  repeat split.
  - destruct H0 as [H0 _]. rewrite P in H0. inv H0. lia.
  - destruct H0 as [H0 _]. rewrite P in H0. inv H0. lia.
  - destruct H0 as (H0 & _ & N). rewrite E in H0. inv H0. apply R in N. lia.
  - destruct H0 as (H0 & _ & N). rewrite E in H0. inv H0. apply R in N. lia.
  - intros p e [Hp _] (He & _ & N). rewrite P in Hp. rewrite E in He. inv Hp. inv He. apply R in N. lia.
  - apply Tk in H0. lia.
  - apply Tk in H0. lia.
  - intros p q t [Hp _] H'. apply Tk in H'. rewrite P in Hp. inv Hp. lia.
Qed.

Lemma In_close_tok q t b s : In (q, t) (close_tok b s) -> q = b /\ b <> 0.
Proof. unfold close_tok. destruct (Z.eqb_spec b 0); [intros []|]. intros [E|[]]. inv E. auto. Qed.

(** A script. *)
Lemma inr_script a x b n nd :
  node_pos n = Some (xp x) -> node_end n = node_end nd ->
  (forall q t, In (q, t) (tree_tokens n) -> q = xp x \/ In (q, t) (tree_tokens nd)) ->
  a <= xp x -> 0 < clen (x_raw x) -> inr (xp x + clen (x_raw x)) nd b ->
  xp x + clen (x_raw x) <= b -> inr a n b.
Proof.
  intros P E T A F (I1 & I2 & I3 & I4 & I5) B. repeat split.
  - destruct H as [H _]. rewrite P in H. inv H. lia.
  - destruct H as [H _]. rewrite P in H. inv H. lia.
  - unfold real_end in H. rewrite E in H. apply I2 in H. lia.
  - unfold real_end in H. rewrite E in H. apply I2 in H. lia.
  - intros p e [Hp _] He. unfold real_end in He. rewrite E in He. apply I2 in He.
    rewrite P in Hp. inv Hp. lia.
  - apply T in H as [->|H]; [lia|]. apply I4 in H. lia.
  - apply T in H as [->|H]; [lia|]. apply I4 in H. lia.
  - intros p q t [Hp _] H. rewrite P in Hp. inv Hp. apply T in H as [->|H]; [lia|]. apply I4 in H. lia.
Qed.

(** A macro. *)
Lemma inr_macro a x args b :
  a <= xp x -> 0 < zlen (xt x) <= clen (x_raw x) ->
  within (xp x + clen (x_raw x)) args b ->
  inr a (NMacro (Some (xp x, xt x)) args) b.
Proof.
  intros A F W. pose proof (within_le _ _ _ W).
  assert (P : forall p, real_pos (NMacro (Some (xp x, xt x)) args) p -> p = xp x).
  { intros p [Hp _]. cbn in Hp. congruence. }
  assert (E : forall e, real_end (NMacro (Some (xp x, xt x)) args) e -> xp x < e <= b).
  { intros e (He & N1 & N2). destruct args as [|y l].
    - cbn in He. inv He. lia.
    - rewrite node_end_macro in He by discriminate. apply (last_end_in _ _ _ _ W) in He as (He & _); [|assumption|assumption]. lia. }
  assert (T : forall q t, In (q, t) (tree_tokens (NMacro (Some (xp x, xt x)) args)) -> xp x <= q < b).
  { intros q t. cbn. intros [T|T]; [inv T; lia|]. apply (within_tokens _ _ _ _ _ W) in T. lia. }
  repeat split.
  - apply P in H0. lia.
  - apply P in H0. lia.
  - apply E in H0. lia.
  - apply E in H0. lia.
  - intros p e Hp He. apply P in Hp. apply E in He. lia.
  - apply T in H0. lia.
  - apply T in H0. lia.
  - intros p q t Hp Hq. apply P in Hp. apply T in Hq. lia.
Qed.

Lemma fits_app xs ys : fits (xs ++ ys) -> fits xs /\ fits ys.
Proof. apply Forall_app. Qed.

Lemma inr_nil a b : inr a NNil b.
Proof.
  repeat split; try (destruct H as [H _]; discriminate H);
    try (intros p e [H _]; discriminate H); try destruct H.
  intros p q t [H _]; discriminate H.
Qed.

Lemma grammar_extent :
  (forall m xs nd o, GNode m xs nd o -> forall a, 0 <= a -> fits xs -> ordered_from a xs ->
     inr a nd (hi a xs) /\ all_ext [nd]) /\
  (forall m c xs ns r o, GLoop m c xs ns r o -> forall a, 0 <= a -> fits xs -> ordered_from a xs ->
     within a ns (hi a xs) /\ all_ext ns /\ (r <> 0 -> a <= r < hi a xs)) /\
  (forall m pk xs nd o, GScript m pk xs nd o -> forall a, 0 <= a -> fits xs -> ordered_from a xs ->
     inr a nd (hi a xs) /\ all_ext [nd]) /\
  (forall m pk sg xs args o, GArgs m pk sg xs args o -> forall a, 0 <= a -> fits xs -> ordered_from a xs ->
     within a args (hi a xs) /\ all_ext args).
Proof.
  assert (L : forall a x n, fits [x] -> ordered_from a [x] -> xk x <> KComment ->
    node_pos n = Some (xp x) -> node_end n = Some (xp x + zlen (xt x)) ->
    (forall q t, In (q, t) (tree_tokens n) -> q = xp x) -> subnodes n = [n] -> list_children n = [] ->
    inr a n (hi a [x]) /\ all_ext [n]).
  { intros a x n F (O1 & O2 & _) NC P E T S C. inv F. specialize (H1 NC).
    assert (I : inr a n (hi a [x])) by (apply inr_leaf; auto).
    split; [exact I|]. eapply all_ext_node with (ns := []); [|exact I| |apply all_ext_nil].
    - rewrite S. intros y [<-|[]]; auto.
    - rewrite C. exact Logic.I. }
  assert (N : forall a b, inr a NNil b /\ all_ext [NNil]).
  { intros a b. split; [apply inr_nil|]. eapply all_ext_node with (ns := []) (a := a) (b := b);
      [|apply inr_nil|exact I|apply all_ext_nil]. intros y [<-|[]]; auto. }
  apply (G_mutind known_macro).
  - intros. apply N.
  - intros. apply N.
  - intros x K a A F O. apply L; auto; [congruence|].
    cbn. intros q t. destruct (is_space_text _); [intros []|]. intros [E|[]]; now inv E.
  - intros m x K a A F O. apply L; auto; [congruence|]. intros q t [E|[]]; now inv E.
  - intros m x K a A F O. apply L; auto; [congruence|]. intros q t [E|[]]; now inv E.
  - intros m x K N1 N2 N3 a A F O. apply L; auto; [congruence|].
    cbn. intros q t. destruct (is_space_text _); [intros []|]. intros [E|[]]; now inv E.
  - intros m x K a A F O. apply L; auto; [intuition congruence|].
    cbn. intros q t. destruct (is_space_text _); [intros []|]. intros [E|[]]; now inv E.
  - intros m x xs ns c o K E _ IH a A F (O1 & O2 & O3). inv F.
    destruct (IH (xp x + clen (x_raw x))) as (W & X & R); [lia|assumption|assumption|].
    assert (I : inr a (NMath "$" (xp x) ns c) (hi a (x :: xs))).
    { eapply inr_group with (ns := ns) (t1 := [(xp x, "$")]) (t2 := close_tok c "$"); auto; try reflexivity.
      - intros q t [Q|[]]. now inv Q.
      - intros q t Q. now apply In_close_tok in Q. }
    split; [exact I|]. eapply all_ext_node with (ns := ns); [|exact I| |assumption].
    + intros y [<-|Hy]; auto.
    + eapply within_siblings; eassumption.
  - intros x xs ns c o K _ IH a A F (O1 & O2 & O3). inv F.
    destruct (IH (xp x + clen (x_raw x))) as (W & X & R); [lia|assumption|assumption|].
    assert (I : inr a (NList ns) (hi a (x :: xs))).
    { apply inr_list. cbn [hi]. eapply within_weaken; [| |exact W]; lia. }
    split; [exact I|]. eapply all_ext_node with (ns := ns); [|exact I| |assumption].
    + intros y [<-|Hy]; auto.
    + eapply within_siblings; eassumption.
  - intros m x xs nd o K E _ IH a A F (O1 & O2 & O3). inv F.
    destruct (IH (xp x + clen (x_raw x))) as (W & X); [lia|assumption|assumption|].
    assert (I : inr a (NSup (xp x) nd) (hi a (x :: xs))).
    { apply inr_script with (x := x) (nd := nd); auto; try reflexivity.
      - cbn. intros q t [Q|Q]; [inv Q; auto|auto].
      - cbn [hi]. now apply hi_ge. }
    split; [exact I|]. eapply all_ext_node with (ns := [nd]); [|exact I|exact Logic.I|assumption].
    intros y [<-|Hy]; auto. right; left; cbn; now rewrite app_nil_r.
  - intros m x xs nd o K E _ IH a A F (O1 & O2 & O3). inv F.
    destruct (IH (xp x + clen (x_raw x))) as (W & X); [lia|assumption|assumption|].
    assert (I : inr a (NSub (xp x) nd) (hi a (x :: xs))).
    { apply inr_script with (x := x) (nd := nd); auto; try reflexivity.
      - cbn. intros q t [Q|Q]; [inv Q; auto|auto].
      - cbn [hi]. now apply hi_ge. }
    split; [exact I|]. eapply all_ext_node with (ns := [nd]); [|exact I|exact Logic.I|assumption].
    intros y [<-|Hy]; auto. right; left; cbn; now rewrite app_nil_r.
  - intros m x xs sg args o K E _ IH a A F (O1 & O2 & O3). inv F.
    destruct (IH (xp x + clen (x_raw x))) as (W & X); [lia|assumption|assumption|].
    assert (Fx : 0 < zlen (xt x) <= clen (x_raw x)) by (apply H1; congruence).
    assert (I : inr a (NMacro (Some (xp x, xt x)) args) (hi a (x :: xs))).
    { apply inr_macro; auto. }
    split; [exact I|]. eapply all_ext_node with (ns := args); [|exact I| |assumption].
    + intros y [<-|[<-|Hy]]; auto. right; right. exists (xp x), (xt x). split; [auto|lia].
    + eapply within_siblings; eassumption.
  - intros m c a A F O. split; [cbn; lia|]. split; [apply all_ext_nil|lia].
  - intros m c x Cl a A F (O1 & O2 & O3). split; [cbn; lia|]. split; [apply all_ext_nil|cbn; lia].
  - intros m c x xs nd o ys ns r o' NC _ IHn Ho _ IHl a A F O.
    change (x :: xs ++ ys) with ((x :: xs) ++ ys) in *.
    apply fits_app in F as [F1 F2]. apply ordered_app2 in O as (O1 & O2).
    pose proof (hi_ge _ _ O1) as Hg.
    destruct (IHn a A F1 O1) as (I & X). destruct (IHl (hi a (x :: xs))) as (W & Y & R); [lia|auto|auto|].
    rewrite hi_app. split.
    + destruct nd; cbn [keep]; try (eexists; split; [|split; [exact I|exact W]]; assumption).
      eapply within_weaken; [| |exact W]; lia.
    + split; [now apply all_ext_keep|]. intros Hr. apply R in Hr. lia.
  - intros m pk x xs ns c o Pk K _ IH a A F (O1 & O2 & O3). inv F.
    destruct (IH (xp x + clen (x_raw x))) as (W & X & R); [lia|assumption|assumption|].
    assert (I : inr a (NList ns) (hi a (x :: xs))).
    { apply inr_list. cbn [hi]. eapply within_weaken; [| |exact W]; lia. }
    split; [exact I|]. eapply all_ext_node with (ns := ns); [|exact I| |assumption].
    + intros y [<-|Hy]; auto.
    + eapply within_siblings; eassumption.
  - intros m pk x xs nd o Pk _ IH. exact IH.
  - intros m pk a A F O. split; [cbn; lia|apply all_ext_nil].
  - intros m pk sg x xs ns c o ys args o' K _ IHl Ho _ IHa a A F (O1 & O2 & O3).
    inv F. apply fits_app in H2 as [F1 F2]. apply ordered_app2 in O3 as (O4 & O5).
    pose proof (hi_ge _ _ O4) as Hg.
    destruct (IHl (xp x + clen (x_raw x))) as (W & X & R); [lia|assumption|assumption|].
    destruct (IHa (hi (xp x + clen (x_raw x)) xs)) as (W' & X'); [lia|assumption|assumption|].
    assert (I : inr a (NArg (xp x) ns c) (hi a (x :: xs))).
    { eapply inr_group with (ns := ns) (t1 := []) (t2 := []); auto; try reflexivity.
      - cbn. now rewrite app_nil_r.
      - intros q t [].
      - intros q t []. }
    split.
    + exists (hi a (x :: xs)). split; [cbn [hi]; lia|]. split; [exact I|].
      cbn [hi]. rewrite hi_app. exact W'.
    + apply all_ext_cons; [|assumption].
      eapply all_ext_node with (ns := ns); [|exact I| |assumption].
      * intros y [<-|Hy]; auto.
      * eapply within_siblings; eassumption.
  - intros m pk sg x xs ns c o ys args o' Pk K _ IHl Ho _ IHa a A F (O1 & O2 & O3).
    inv F. apply fits_app in H2 as [F1 F2]. apply ordered_app2 in O3 as (O4 & O5).
    pose proof (hi_ge _ _ O4) as Hg.
    destruct (IHl (xp x + clen (x_raw x))) as (W & X & R); [lia|assumption|assumption|].
    destruct (IHa (hi (xp x + clen (x_raw x)) xs)) as (W' & X'); [lia|assumption|assumption|].
    assert (I : inr a (NOptArg (xp x) ns c) (hi a (x :: xs))).
    { eapply inr_group with (ns := ns) (t1 := [(xp x, "[")]) (t2 := close_tok c "]"); auto; try reflexivity.
      - intros q t [Q|[]]. now inv Q.
      - intros q t Q. now apply In_close_tok in Q. }
    split.
    + exists (hi a (x :: xs)). split; [cbn [hi]; lia|]. split; [exact I|].
      cbn [hi]. rewrite hi_app. exact W'.
    + apply all_ext_cons; [|assumption].
      eapply all_ext_node with (ns := ns); [|exact I| |assumption].
      * intros y [<-|Hy]; auto.
      * eapply within_siblings; eassumption.
  - auto.
Qed.
