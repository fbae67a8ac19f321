(** Consequences of the grammar for parsed trees. *)
From Coq Require Import ZArith String Ascii List Bool Lia ZifyBool.
From Verif Require Import Utf8 GoScanner Token Lexer Ast MacroTable SymTable Parser
  Utf8Facts LexFacts LexText Grammar Stream ParserFacts GrammarFacts TreeSpec.
Import ListNotations.
Local Open Scope string_scope.
Local Open Scope list_scope.
Local Open Scope Z_scope.

Lemma flat_map_keep {B} (f : node -> list B) n l :
  f NNil = [] -> flat_map f (keep n l) = f n ++ flat_map f l.
Proof. intros H. destruct n; cbn; rewrite ?H; reflexivity. Qed.

Lemma In_subnodes_keep x n ns :
  In x (flat_map subnodes (keep n ns)) -> In x (subnodes n) \/ In x (flat_map subnodes ns).
Proof.
  destruct n; cbn [keep]; auto; cbn [flat_map]; intros H; apply in_app_or in H; tauto.
Qed.

Section WithLetters.
Variable U : Z -> bool.
Notation lex1 := (lex1 U).
Notation GNode := (GNode known_macro).
Notation GLoop := (GLoop known_macro).
Notation GScript := (GScript known_macro).
Notation GArgs := (GArgs known_macro).

(** A lexeme returned by the lexer somewhere in a source text [x]. *)
Definition LexAt (x : string) (l : lexeme) : Prop :=
  (exists pre post, x = append pre (append (raw_of (x_raw l)) post) /\ zlen pre = xp l) /\
  (exists s s', wf_ls s /\ lex1 s = LexOk l s' /\ xk l <> KEOF).

Lemma LexAt_shape x l : LexAt x l -> tok_shape U (x_tok l).
Proof. intros (_ & s & s' & W & L & _). eapply lex1_shape; eassumption. Qed.

(** Where the lexer is in the source. *)
Definition Located (x : string) (s : lstate) : Prop :=
  wf_ls s /\ exists pre, x = append pre (raw_of (l_rest s)) /\ zlen pre = l_off s.

Lemma init_located x : Located x (init_lex x).
Proof.
  split; [apply init_lex_wf|]. unfold init_lex. pose proof (chars_raw x) as H.
  destruct (chars x) as [|c l]; cbn in *.
  - exists "". rewrite <- H. auto.
  - destruct (c_rune c =? BOM); cbn.
    + exists (c_raw c). auto.
    + exists "". auto.
Qed.

Lemma lex1_located x s l s' :
  Located x s -> lex1 s = LexOk l s' ->
  Located x s' /\ (xk l <> KEOF -> LexAt x l) /\
  l_off s <= xp l /\ xp l + clen (x_raw l) = l_off s' /\ (xk l <> KEOF -> 0 < clen (x_raw l)).
Proof.
  intros (W & pre & E & P) L. pose proof (lex1_split _ _ _ _ L) as (R & _ & T & O & _ & _ & N).
  assert (E' : x = append (append pre (raw_of (x_skip l)))
                     (append (raw_of (x_raw l)) (raw_of (l_rest s')))).
  { rewrite E, R, !raw_of_app, !sapp_assoc. reflexivity. }
  assert (P' : zlen (append pre (raw_of (x_skip l))) = xp l).
  { rewrite zlen_app, P. unfold xp. rewrite T. reflexivity. }
  pose proof (clen_nonneg (x_skip l)).
  split.
  - split; [eapply lex1_wf; eassumption|].
    exists (append (append pre (raw_of (x_skip l))) (raw_of (x_raw l))).
    split; [now rewrite (sapp_assoc _ (raw_of (x_raw l)))|].
    rewrite zlen_app, P', O. reflexivity.
  - split.
    + intros K. split; [eauto|]. exists s, s'. auto.
    + unfold xp in *. repeat split; try lia.
      intros K. specialize (N K).
      assert (F : Forall wf_chr (x_raw l)).
      { unfold wf_ls in W. rewrite R in W. apply Forall_app in W as [_ W].
        now apply Forall_app in W as [W _]. }
      destruct (x_raw l) as [|c r]; [easy|]. inv F. destruct H2 as (H2 & _).
      unfold clen. cbn [raw_of]. rewrite zlen_app. pose proof (zlen_pos _ H2).
      pose proof (zlen_nonneg (raw_of r)). lia.
Qed.

Lemma Lexes_located x s xs s' :
  Located x s -> Lexes U s xs s' -> Located x s' /\ Forall (LexAt x) xs.
Proof.
  intros Lo H; revert Lo; induction H as [|s l s1 xs s2 L K H IH]; intros Lo; [auto|].
  apply lex1_located with (l := l) (s' := s1) in Lo as (Lo & A & _); [|assumption].
  destruct (IH Lo) as [B C]. split; [assumption|]. constructor; auto.
Qed.

Lemma Tokens_at x xs : Tokens U x xs -> Forall (LexAt x) xs.
Proof.
  intros (s & t & L & _). eapply Lexes_located; [apply init_located|eassumption].
Qed.

(** Positions are ordered: each token starts at or after the end of the
    previous one. *)
Fixpoint ordered_from (o : Z) (xs : list lexeme) : Prop :=
  match xs with
  | [] => True
  | l :: xs' => o <= xp l /\ 0 < clen (x_raw l) /\ ordered_from (xp l + clen (x_raw l)) xs'
  end.

Lemma Lexes_ordered x s xs s' :
  Located x s -> Lexes U s xs s' -> ordered_from (l_off s) xs.
Proof.
  intros Lo H; revert Lo; induction H as [|s l s1 xs s2 L K H IH]; intros Lo; cbn; [auto|].
  apply lex1_located with (l := l) (s' := s1) in Lo as (Lo & A & B & C & D); [|assumption].
  rewrite C. auto.
Qed.

Lemma Tokens_ordered x xs : Tokens U x xs -> ordered_from (l_off (init_lex x)) xs.
Proof. intros (s & t & L & _). eapply Lexes_ordered; [apply init_located|eassumption]. Qed.

Lemma init_off_nonneg x : 0 <= l_off (init_lex x).
Proof.
  unfold init_lex. destruct (chars x); cbn; [lia|]. destruct (_ =? _); cbn; [apply zlen_nonneg|lia].
Qed.

Lemma ordered_increasing o xs : ordered_from o xs -> increasing (map xp xs).
Proof.
  revert o; induction xs as [|a xs IH]; cbn; [auto|]. intros o (H1 & H2 & H3).
  specialize (IH _ H3). destruct xs as [|b xs]; cbn in *; [auto|]. split; [lia|assumption].
Qed.

Lemma ordered_filter f o xs : ordered_from o xs -> ordered_from o (filter f xs).
Proof.
  assert (W : forall xs o o', o' <= o -> ordered_from o xs -> ordered_from o' xs).
  { intros [|y ys] a b H; cbn; [auto|]. intros (H1 & H2 & H3). repeat split; auto; lia. }
  revert o; induction xs as [|a xs IH]; cbn; [auto|]. intros o (H1 & H2 & H3).
  destruct (f a); cbn; [auto|]. apply IH. eapply W; [|eassumption]. lia.
Qed.

(** *** Source text of the leaves *)
Lemma slice_at pre mid post : slice (append pre (append mid post)) (zlen pre) (zlen pre + zlen mid) = Some mid.
Proof.
  unfold slice. rewrite !sapp_length.
  pose proof (zlen_nonneg pre). pose proof (zlen_nonneg mid).
  replace (_ && _) with true by (unfold zlen in *; lia).
  f_equal. replace (zlen pre + zlen mid - zlen pre) with (zlen mid) by lia.
  unfold zlen. rewrite !Nat2Z.id.
  induction pre as [|a pre IH]; cbn [append String.length substring].
  - induction mid as [|b mid IH]; cbn [append String.length substring].
    + destruct post; reflexivity.
    + f_equal. apply IH. apply zlen_nonneg.
  - apply IH. apply zlen_nonneg.
Qed.

Lemma LexAt_text x l :
  LexAt x l -> xk l <> KComment -> xk l <> KMacro ->
  slice x (xp l) (xp l + zlen (xt l)) = Some (xt l).
Proof.
  intros ((pre & post & E & P) & s & s' & W & L & _) N1 N2.
  pose proof (lex1_text _ _ _ _ W L N1) as T. fold (xk l) (xt l) in T.
  assert (T' : xt l = raw_of (x_raw l)) by (destruct (xk l); try exact T; contradiction).
  rewrite E, T', <- P. apply slice_at.
Qed.

(** Macro names: the backslash is at the position, and after optional
    TAB/LF/CR comes the rest of the name. *)
Lemma ws_raw l : Forall wf_chr l -> Forall (fun c => is_ws (c_rune c) = true) l ->
  ws_string (raw_of l).
Proof.
  intros W F a. induction l as [|c l IH]; cbn; [easy|]. inv W. inv F.
  assert (E : c_raw c = String (zascii (c_rune c)) "").
  { destruct H1 as (_ & _ & H1 & _). apply H1. unfold is_ws in H3. lia. }
  rewrite E. cbn. intros [<- | H]; [|auto].
  unfold is_ws in H3. rewrite byte_zascii by lia. lia.
Qed.

Lemma LexAt_macro x l :
  LexAt x l -> xk l = KMacro ->
  exists w nm, xt l = append "\" nm /\ ws_string w /\
    slice x (xp l) (xp l + 1 + zlen w + zlen nm) = Some (append "\" (append w nm)).
Proof.
  intros ((pre & post & E & P) & s & s' & W & L & NE) K.
  pose proof (lex1_text _ _ _ _ W L) as T. fold (xk l) (xt l) in T. rewrite K in T.
  destruct T as (bs & sk & nm & R & B & F & T); [discriminate|].
  pose proof (lex1_split _ _ _ _ L) as (Sp & _).
  unfold wf_ls in W. rewrite Sp in W. apply Forall_app in W as [_ W].
  apply Forall_app in W as [W _]. rewrite R in W. inv W.
  exists (raw_of sk), (raw_of nm).
  assert (Eb : c_raw bs = "\").
  { destruct H1 as (_ & _ & H1 & _). rewrite H1 by lia. rewrite B. reflexivity. }
  split; [exact T|]. split; [apply ws_raw; [|assumption]; now apply Forall_app in H2 as [H2 _]|].
  rewrite R. cbn [raw_of]. rewrite Eb, raw_of_app, <- P.
  replace (zlen pre + 1 + zlen (raw_of sk) + zlen (raw_of nm))
    with (zlen pre + zlen (append "\" (append (raw_of sk) (raw_of nm))))
    by (rewrite !zlen_app; change (zlen "\") with 1; lia).
  apply slice_at.
Qed.

(** *** Every leaf of a tree is a token *)
Definition leaf_of (xs : list lexeme) (n : node) : Prop :=
  match n with
  | NWord p t => exists l, In l xs /\ xk l = KWord /\ xp l = p /\ xt l = t
  | NLit p t => exists l, In l xs /\ xk l = KNumber /\ xp l = p /\ xt l = t
  | NSym p t => exists l, In l xs /\ xk l <> KComment /\ xk l <> KMacro /\ xp l = p /\ xt l = t
  | NIdent p t => exists l, In l xs /\ xk l = KMacro /\ xp l = p /\ xt l = t
  | NMath d a _ b =>
    d = "$" /\ (exists l, In l xs /\ xk l = KSymbol /\ xt l = "$" /\ xp l = a) /\
    (b = 0 \/ exists l, In l xs /\ xk l = KSymbol /\ xt l = "$" /\ xp l = b)
  | NArg a _ b =>
    (exists l, In l xs /\ xk l = KLbrace /\ xp l = a) /\
    (b = 0 \/ exists l, In l xs /\ xk l = KRbrace /\ xp l = b)
  | NOptArg a _ b =>
    (exists l, In l xs /\ xk l = KLbrack /\ xp l = a) /\
    (b = 0 \/ exists l, In l xs /\ xk l = KRbrack /\ xp l = b)
  | NSub p _ => exists l, In l xs /\ xk l = KSymbol /\ xp l = p /\ xt l = "_"
  | NSup p _ => exists l, In l xs /\ xk l = KSymbol /\ xp l = p /\ xt l = "^"
  | NMacro nm args =>
    exists p t sg, nm = Some (p, t) /\ known_macro t = Some sg /\ args_match sg args /\
    exists l, In l xs /\ xk l = KMacro /\ xp l = p /\ xt l = t
  | NList _ | NNil => True
  end.

Lemma leaf_of_mono xs ys n : incl xs ys -> leaf_of xs n -> leaf_of ys n.
Proof.
  intros I. destruct n; cbn; auto; intros H.
  - destruct H as (p & t & sg & A & B & C & y & D & E). exists p, t, sg. repeat split; auto.
    exists y. split; auto.
  - destruct H as ((y & A & B) & C). split; [exists y; auto|].
    destruct C as [C|(y' & A' & B')]; [auto|right; exists y'; auto].
  - destruct H as ((y & A & B) & C). split; [exists y; auto|].
    destruct C as [C|(y' & A' & B')]; [auto|right; exists y'; auto].
  - destruct H as (y & A & B). exists y; auto.
  - destruct H as (E & (y & A & B) & C). split; [assumption|]. split; [exists y; auto|].
    destruct C as [C|(y' & A' & B')]; [auto|right; exists y'; auto].
  - destruct H as (y & A & B). exists y; auto.
  - destruct H as (y & A & B). exists y; auto.
  - destruct H as (y & A & B). exists y; auto.
  - destruct H as (y & A & B). exists y; auto.
  - destruct H as (y & A & B). exists y; auto.
Qed.

Definition all_leaves (xs : list lexeme) (ns : list node) : Prop :=
  forall n, In n (flat_map subnodes ns) -> leaf_of xs n.

Lemma all_leaves_mono xs ys ns : incl xs ys -> all_leaves xs ns -> all_leaves ys ns.
Proof. intros I H n Hn. eapply leaf_of_mono; eauto. Qed.

(** Where a loop's recorded closing position comes from. *)
Definition close_at (c : closer) (xs : list lexeme) (r : Z) : Prop :=
  r = 0 \/ exists l, In l xs /\ closes c l /\ xp l = r.

Lemma all_leaves_cons xs n ns :
  (forall m, In m (subnodes n) -> leaf_of xs m) -> all_leaves xs ns -> all_leaves xs (n :: ns).
Proof. intros H1 H2 m Hm. cbn in Hm. apply in_app_or in Hm as [Hm|Hm]; auto. Qed.

Lemma grammar_leaves :
  (forall m xs nd o, GNode m xs nd o -> all_leaves xs [nd]) /\
  (forall m c xs ns r o, GLoop m c xs ns r o -> all_leaves xs ns /\ close_at c xs r) /\
  (forall m pk xs nd o, GScript m pk xs nd o -> all_leaves xs [nd]) /\
  (forall m pk sg xs args o, GArgs m pk sg xs args o -> all_leaves xs args /\ args_match sg args).
Proof.
  apply (G_mutind known_macro); unfold all_leaves, close_at.
  - intros m x K n [<-|[]]. exact I.
  - intros x K n [<-|[]]. exact I.
  - intros x K n [<-|[]]. cbn. exists x. rewrite K. cbn; repeat split; auto; discriminate.
  - intros m x K n [<-|[]]. cbn. exists x. cbn; auto.
  - intros m x K n [<-|[]]. cbn. exists x. cbn; auto.
  - intros m x K N1 N2 N3 n [<-|[]]. cbn. exists x. rewrite K. cbn; repeat split; auto; discriminate.
  - intros m x K n [<-|[]]. cbn. exists x. cbn. repeat split; auto; intros E; rewrite E in K;
      destruct K as [K|[K|[K|K]]]; discriminate.
  - intros m x xs ns c o K E _ (IH & Cl) n Hn. cbn in Hn. rewrite app_nil_r in Hn.
    destruct Hn as [<-|Hn].
    + cbn. split; [reflexivity|]. split; [exists x; cbn; auto|].
      destruct Cl as [Cl|(l & I & Cl & P)]; [auto|]. right. exists l. cbn. destruct Cl; auto.
    + eapply leaf_of_mono; [|apply IH; exact Hn]. intros y; cbn; auto.
  - intros x xs ns c o K _ (IH & Cl) n Hn. cbn in Hn. rewrite app_nil_r in Hn.
    destruct Hn as [<-|Hn]; [exact I|].
    eapply leaf_of_mono; [|apply IH; exact Hn]. intros y; cbn; auto.
  - intros m x xs nd o K E _ IH n Hn. cbn in Hn. rewrite app_nil_r in Hn.
    destruct Hn as [<-|Hn]; [exists x; cbn; auto|].
    eapply leaf_of_mono; [|apply IH; cbn; rewrite app_nil_r; exact Hn]. intros y; cbn; auto.
  - intros m x xs nd o K E _ IH n Hn. cbn in Hn. rewrite app_nil_r in Hn.
    destruct Hn as [<-|Hn]; [exists x; cbn; auto|].
    eapply leaf_of_mono; [|apply IH; cbn; rewrite app_nil_r; exact Hn]. intros y; cbn; auto.
  - intros m x xs sg args o K E _ (IH & AM) n Hn. cbn in Hn. rewrite app_nil_r in Hn.
    destruct Hn as [<-|[<-|Hn]].
    + exists (xp x), (xt x), sg. repeat split; auto. exists x; cbn; auto.
    + exists x; cbn; auto.
    + eapply leaf_of_mono; [|apply IH; exact Hn]. intros y; cbn; auto.
  - intros m c. split; [easy|auto].
  - intros m c x Cl. split; [easy|]. right. exists x. cbn; auto.
  - intros m c x xs nd o ys ns r o' NC G IHn Ho G' (IHl & Cl). split.
    + intros n Hn. apply In_subnodes_keep in Hn as [Hn|Hn].
      * eapply leaf_of_mono; [|apply IHn; cbn; rewrite app_nil_r; exact Hn].
        intros y; cbn; rewrite in_app_iff; tauto.
      * eapply leaf_of_mono; [|apply IHl; exact Hn]. intros y; cbn; rewrite in_app_iff; tauto.
    + destruct Cl as [Cl|(l & I & Cl & P)]; [auto|]. right. exists l.
      split; [cbn; rewrite in_app_iff; tauto|auto].
  - intros m pk x xs ns c o Pk K _ (IH & Cl) n Hn. cbn in Hn. rewrite app_nil_r in Hn.
    destruct Hn as [<-|Hn]; [exact I|].
    eapply leaf_of_mono; [|apply IH; exact Hn]. intros y; cbn; auto.
  - intros m pk x xs nd o Pk G IH. exact IH.
  - intros m pk. split; [easy|constructor].
  - intros m pk sg x xs ns c o ys args o' K _ (IHl & Cl) Ho _ (IHa & AM). split; [|now constructor].
    apply all_leaves_cons.
    + intros n [<-|Hn].
      * cbn. split; [exists x; cbn; auto|].
        destruct Cl as [Cl|(l & I & Cl & P)]; [auto|]. right. exists l.
        split; [cbn; rewrite in_app_iff; tauto|auto].
      * eapply leaf_of_mono; [|apply IHl; exact Hn]. intros y; cbn; rewrite in_app_iff; tauto.
    + intros n Hn. eapply leaf_of_mono; [|apply IHa; exact Hn]. intros y; cbn; rewrite in_app_iff; tauto.
  - intros m pk sg x xs ns c o ys args o' Pk K _ (IHl & Cl) Ho _ (IHa & AM). split; [|now constructor].
    apply all_leaves_cons.
    + intros n [<-|Hn].
      * cbn. split; [exists x; cbn; auto|].
        destruct Cl as [Cl|(l & I & Cl & P)]; [auto|]. right. exists l.
        split; [cbn; rewrite in_app_iff; tauto|auto].
      * eapply leaf_of_mono; [|apply IHl; exact Hn]. intros y; cbn; rewrite in_app_iff; tauto.
    + intros n Hn. eapply leaf_of_mono; [|apply IHa; exact Hn]. intros y; cbn; rewrite in_app_iff; tauto.
  - intros m pk sg xs args o Pk _ (IHa & AM). split; [assumption|]. now apply am_noopt.
Qed.

End WithLetters.
