(** Fractions, spacing, dropped groups. *)
From Coq Require Import ZArith String Ascii List Bool Lia.
From Verif Require Import Utf8 Utf8Facts Token Ast MacroTable SymTable SetTable MtexTable Parser Grammar Stream Symbols
  PropSymbols TreeSpec Arith Box Ship ShipSpec ShipFacts ShipFacts2 Mtex MtexSpec FracSpec MtexFacts MtexFacts2.
Import ListNotations.
Local Open Scope string_scope.
Local Open Scope list_scope.
Local Open Scope Z_scope.

(** ** The character before a position *)
Definition blanks (s : string) : Prop := forall d, In d (list_ascii_of_string s) -> d = " "%char.

Lemma last_nonspace_spec s acc r : last_nonspace s acc = r ->
  (exists a c b, s = (a ++ String c b)%string /\ c <> " "%char /\ blanks b /\ r = Some c) \/ (blanks s /\ r = acc).
Proof.
  revert acc. induction s as [|x s IH]; intros acc H; cbn [last_nonspace] in H.
  - right. split; [intros d []|congruence].
  - apply IH in H as [(a & c & b & -> & H1 & H2 & H3)|[H1 H2]].
    + left. exists (String x a), c, b. auto.
    + destruct (Ascii.eqb_spec x " ") as [->|N].
      * right. split; [|assumption]. intros d [<-|I]; [reflexivity|auto].
      * left. exists "", x, s. auto.
Qed.

Lemma app_string_list a b : list_ascii_of_string (a ++ b) = list_ascii_of_string a ++ list_ascii_of_string b.
Proof. induction a as [|x a IH]; cbn; [reflexivity|]. now rewrite IH. Qed.

Lemma last_nonspace_app a c b acc : c <> " "%char -> blanks b -> last_nonspace (a ++ String c b) acc = Some c.
Proof.
  revert acc. induction a as [|x a IH]; intros acc N B; cbn [append last_nonspace].
  - destruct (Ascii.eqb_spec c " ") as [->|_]; [congruence|].
    assert (G : forall s, blanks s -> forall acc, last_nonspace s acc = acc).
    { induction s as [|y s IHs]; intros Bs ac; [reflexivity|]. cbn [last_nonspace].
      rewrite (Bs y (or_introl eq_refl)). cbn. apply IHs. intros d I. apply Bs. now right. }
    now apply G.
  - now apply IH.
Qed.

Definition opening (c : ascii) : bool := existsb (Ascii.eqb c) ["{"; "("; "["; "<"]%char.

Lemma prev_opening expr p before : slice expr 0 p = Some before ->
  (String.eqb (prev_of before) "{" || set_has (new_set LeftDelim_list) (prev_of before) = true <->
   exists c, preceded expr p c /\ opening c = true).
Proof.
  intros E. unfold prev_of.
  assert (Q : forall c, String.eqb (encode_rune (byte c)) "{" || set_has (new_set LeftDelim_list) (encode_rune (byte c)) = opening c).
  { intros c. destruct c as [[] [] [] [] [] [] [] []]; vm_compute; reflexivity. }
  destruct (last_nonspace before None) as [c|] eqn:L.
  - rewrite Q. apply last_nonspace_spec in L as [(a & c' & b & -> & N & B & [= <-])|[_ H]]; [|discriminate H].
    split.
    + intros O. exists c. split; [|assumption]. exists a, b. auto.
    + intros (c' & (a' & b' & E' & N' & B') & O). rewrite E in E'. injection E' as E'.
      pose proof (last_nonspace_app a c b None N B) as L1. rewrite E' in L1. rewrite last_nonspace_app in L1 by assumption.
      congruence.
  - split; [intros H; vm_compute in H; discriminate H|].
    intros (c' & (a' & b' & E' & N' & B') & O). rewrite E in E'. injection E' as ->.
    rewrite last_nonspace_app in L by assumption. discriminate L.
Qed.

(** ** Spaced symbols *)
Lemma spaced_handler range sym : fair range -> is_spaced range sym = true -> handler range sym = LOk (Some HSymbol).
Proof.
  intros F H. unfold handler. rewrite H.
  assert (N : assoc sym space_width = None).
  { apply (C20_is_spaced range sym F) in H.
    assert (C : forallb (fun k => match assoc k space_width with None => true | Some _ => false end)
      (BinaryOperators_list ++ RelationSymbols_list ++ ArrowSymbols_list) = true) by (vm_compute; reflexivity).
    rewrite forallb_forall in C. specialize (C sym). destruct (assoc sym space_width); [|reflexivity].
    discriminate C. rewrite !in_app_iff. exact H. }
  now rewrite N.
Qed.

Section Spacing.
Context {A : arith} {S : Type}.
Variable range : Symbols.gset -> list string.
Variable be : @backend A S.
Variable parse_float : string -> option (Arith.F A).
Variable expr : string.
Notation tnode := (@Box.tnode A).
Notation state := (@Box.state A).
Notation visitor := (@visitor A).
Notation go := (go range be parse_float expr).
Notation M := (@M S).

Lemma make_space_ok st p s t s' : make_space be st p s = LOk (t, s') ->
  exists m, be_metrics be "m" (mk_font "it" "it" (f_size (st_font st))) (st_dpi st) true s = LOk (m, s') /\
            t = TKern 0 (fmul A (m_adv m) p).
Proof.
  unfold make_space. intros E. apply bind_ok in E as (m & s1 & E1 & E). apply ret_ok in E as [-> ->]. eauto.
Qed.

(** HListOf of a kern, a character and a kern. *)
Lemma kern_char_kern (Z0 : feqb A f0 f0 = true) s1 w1 ch s2 w2 s t s' :
  hlist_of be [TKern s1 w1; TChar ch; TKern s2 w2] true s = LOk (t, s') ->
  s' = s /\ exists b gs, t = TL KHList b f0 gs
    (TKern s1 w1 :: TChar ch ::
     (let d := fadd A (fsub A (m_adv (c_metrics ch)) (c_width ch)) f0 in
      if negb (feqb A d f0) then [new_kern d] else []) ++ [TKern s2 w2]).
Proof.
  unfold hlist_of. intros E. apply bind_ok in E as (l & s1' & E1 & E). apply ret_ok in E as [-> ->].
  cbn [kern_list kerning hd_error] in E1. unfold mbind, mret in E1. rewrite Z0 in E1. cbn [negb] in E1.
  injection E1 as <- <-. split; [reflexivity|]. unfold list_of. cbn [hpack].
  destruct (negb _); cbn [app]; eauto.
Qed.

Lemma go_spaced (FR : fair range) (Z0 : feqb A f0 f0 = true) w n sym pos v s v' s' :
  is_spaced range sym = true ->
  ((n = NSym pos sym /\ v_math v = true) \/ exists args, n = NMacro (Some (pos, sym)) args) ->
  go w n v s = LOk (v', s') ->
  exists ch s1, new_char be sym (v_state v) (v_math v) s = LOk (ch, s1) /\
  let tight := In sym BinaryOperators_list /\ exists c, preceded expr pos c /\ opening c = true in
  (tight -> v' = push (TChar ch) v /\ s' = s1) /\
  (~ tight -> exists m1 m2 s2 b gs,
     let em := be_metrics be "m" (mk_font "it" "it" (f_size (st_font (v_state v)))) (st_dpi (v_state v)) true in
     em s1 = LOk (m1, s2) /\ em s2 = LOk (m2, s') /\
     v' = push (TL KHList b f0 gs
       (new_kern (fmul A (m_adv m1) (frat 1 5)) :: TChar ch ::
        (let d := fadd A (fsub A (m_adv (c_metrics ch)) (c_width ch)) f0 in
         if negb (feqb A d f0) then [new_kern d] else []) ++ [new_kern (fmul A (m_adv m2) (frat 1 5))])) v) /\
  (tight \/ ~ tight).
Proof.
  intros SP N G.
  assert (H : mbind (handle_symbol range be expr sym pos (v_state v) (v_math v)) (fun t => mret (push t v)) s = LOk (v', s')).
  { destruct N as [[-> Mt]|(args & ->)]; cbn [Mtex.go] in G; rewrite (spaced_handler range sym FR SP) in G; [rewrite Mt in G|];
      cbn [mlift handle_sym Mtex.handle_macro] in G; apply bind_ok in G as (h & s0 & Eh & G);
      apply ret_ok in Eh as [-> ->]; rewrite ?Mt; exact G. }
  clear G N. apply bind_ok in H as (t & s0 & H & R). apply ret_ok in R as [-> ->].
  unfold handle_symbol in H. apply bind_ok in H as (ch & s1 & E1 & H). rewrite SP in H.
  apply bind_ok in H as (before & s2 & E2 & H).
  destruct (slice expr 0 pos) as [bf|] eqn:SL; cbn [obool_lres mlift] in E2; [|discriminate E2].
  apply ret_ok in E2 as [-> ->]. pose proof (prev_opening expr pos bf SL) as PO.
  exists ch, s1. split; [exact E1|]. cbv zeta.
  assert (TI : set_has (new_set BinaryOperators_list) sym && (String.eqb (prev_of bf) "{" || set_has (new_set LeftDelim_list) (prev_of bf)) = true
     <-> In sym BinaryOperators_list /\ exists c, preceded expr pos c /\ opening c = true).
  { rewrite andb_true_iff, C20_new_set_has, PO. reflexivity. }
  set (tg := In sym BinaryOperators_list /\ exists c, preceded expr pos c /\ opening c = true) in *.
  destruct (set_has (new_set BinaryOperators_list) sym && _) eqn:B.
  - apply ret_ok in H as [-> ->]. assert (tg) by (now apply TI). repeat split; auto; tauto.
  - assert (NT : ~ tg) by (intros T; apply TI in T; congruence).
    split; [tauto|]. split; [|tauto]. intros _.
    apply bind_ok in H as (k1 & s3 & K1 & H). apply bind_ok in H as (k2 & s4 & K2 & H).
    apply make_space_ok in K1 as (m1 & M1 & ->). apply make_space_ok in K2 as (m2 & M2 & ->).
    apply (kern_char_kern Z0) in H as (-> & b & gs & ->). exists m1, m2, s3, b, gs. auto.
Qed.

(** ** Fractions *)
Lemma hcentered_ok x s t s' : hcentered be [x] s = LOk (t, s') ->
  s' = s /\ exists b gs, t = TL KHList b f0 gs [glue_ss; x; glue_ss] /\ b_size b = 0%Z.
Proof.
  unfold hcentered, hlist_of. intros E. apply bind_ok in E as (l & s1 & E1 & E). apply ret_ok in E1 as [-> ->].
  apply ret_ok in E as [-> ->]. split; [reflexivity|]. unfold list_of. cbn [hpack app]. do 2 eexists. split; reflexivity.
Qed.

Definition style_shrink (sty : style) (t : tnode) : M tnode :=
  match sty with DisplayStyle => mret t | TextStyle => shrink be t end.

Lemma genfrac_ok (Z0 : feqb A f0 f0 = true) ld rd rule sty num den st s t s' :
  fltb A rule f0 = false ->
  genfrac be ld rd rule sty num den st s = LOk (t, s') ->
  exists th s1 num' s2 den' s3 me bx s4,
    be_underline be (st_font st) (st_dpi st) s = LOk (th, s1) /\
    style_shrink sty num s1 = LOk (num', s2) /\ style_shrink sty den s2 = LOk (den', s3) /\
    be_metrics be "=" (mk_font (f_name (st_font st)) "it" (f_size (st_font st))) (st_dpi st) true s3 = LOk (me, s4) /\
    stacked num' den' th rule (middle me) bx /\
    (if negb (String.eqb ld "") || negb (String.eqb rd "")
     then auto_sized_delimiter be (if String.eqb ld "" then "." else ld) bx (if String.eqb rd "" then "." else rd) st s4 = LOk (t, s')
     else t = bx /\ s' = s4).
Proof.
  intros RN E. unfold genfrac in E. apply bind_ok in E as (th & s1 & E1 & E).
  apply bind_ok in E as (num' & s2 & E2 & E). apply bind_ok in E as (den' & s3 & E3 & E).
  apply bind_ok in E as (cn & s4 & E4 & E). apply hcentered_ok in E4 as (-> & b1 & g1 & -> & Z1).
  apply bind_ok in E as (cd & s5 & E5 & E). apply hcentered_ok in E5 as (-> & b2 & g2 & -> & Z2).
  apply bind_ok in E as (bar & s6 & E6 & E). unfold hrule in E6. rewrite RN in E6.
  apply bind_ok in E6 as (th' & s7 & E7 & E6). apply ret_ok in E7 as [-> ->]. apply ret_ok in E6 as [-> ->].
  apply bind_ok in E as (vl & s8 & E8 & E). unfold vlist_of in E8.
  destruct (vpack _ _ _ _) as [vl0|] eqn:EV in E8; [|discriminate E8]. apply ret_ok in E8 as [-> ->].
  apply bind_ok in E as (m & s9 & E9 & E). apply bind_ok in E as (bx & s10 & E10 & E).
  pose proof EV as EV'. unfold list_of in EV'. cbn [vpack] in EV'.
  destruct (vfold _ _) as [dv|]; [|discriminate EV']. injection EV' as EV'. rewrite <- EV' in E10.
  cbn [set_shift] in E10. unfold hlist_of in E10. apply bind_ok in E10 as (l & s11 & E11 & E10).
  apply ret_ok in E10 as [-> ->]. cbn [kern_list kerning hd_error hbox] in E11. unfold mbind, mret in E11.
  rewrite Z0 in E11. cbn [negb] in E11. injection E11 as <- <-.
  exists th, s1, num', s2, den', s3, m. do 2 eexists. do 4 (split; [eassumption|]). split.
  2:{ destruct (_ || _); [exact E|]. apply ret_ok in E as [-> ->]. split; reflexivity. }
  exists (hpack (fmax A (t_width num') (t_width den')) false (TL KHList b1 f0 g1 [glue_ss; num'; glue_ss])),
         (hpack (fmax A (t_width num') (t_width den')) false (TL KHList b2 f0 g2 [glue_ss; den'; glue_ss])), vl0.
  split; [do 2 eexists; split; [reflexivity|assumption]|]. split; [do 2 eexists; split; [reflexivity|assumption]|]. split; [exact EV|].
  rewrite <- EV'. reflexivity.
Qed.

Lemma auto_ok (Z0 : feqb A f0 f0 = true) c h d st f s t s' : auto_height_char be c h d st f s = LOk (t, s') ->
  exists b sh gs ch kl, t = TL KHList b sh gs (TChar ch :: kl) /\ c_sym ch = c.
Proof.
  unfold auto_height_char. intros E. apply bind_ok in E as (x & s1 & _ & E). apply bind_ok in E as (ch & s2 & E2 & E).
  apply bind_ok in E as ((c2, sh) & s3 & E3 & E). apply bind_ok in E as (hl & s4 & E4 & E). apply ret_ok in E as [-> _].
  assert (NC : forall st m s ch s', new_char be c st m s = LOk (ch, s') -> c_sym ch = c).
  { unfold new_char. intros. apply bind_ok in H as (? & ? & _ & H). apply ret_ok in H as [-> _]. reflexivity. }
  assert (C2 : c_sym c2 = c).
  { destruct (negb _).
    - apply bind_ok in E3 as (ch' & s5 & E5 & E3). apply ret_ok in E3 as [[= -> ->] _]. eauto.
    - apply ret_ok in E3 as [[= -> ->] _]. eauto. }
  cbn [fst snd] in *. unfold hlist_of in E4. apply bind_ok in E4 as (l & s5 & E5 & E4). apply ret_ok in E4 as [-> _].
  cbn [kern_list kerning hd_error] in E5. unfold mbind, mret in E5. unfold list_of. cbn [hpack set_shift].
  destruct (negb _) in E5; injection E5 as <- <-; do 5 eexists; split; try reflexivity; assumption.
Qed.

Lemma delim_ok (Z0 : feqb A f0 f0 = true) bx st s t s' :
  match bx with TChar _ | TAccent _ => False | _ => True end ->
  auto_sized_delimiter be "(" bx ")" st s = LOk (t, s') -> parenthesised be st bx s t s'.
Proof.
  intros NB E. unfold auto_sized_delimiter in E. cbn [String.eqb Ascii.eqb Bool.eqb negb] in E.
  apply bind_ok in E as (l & s1 & E1 & E). apply bind_ok in E1 as (tl & s2 & E2 & E1). apply ret_ok in E1 as [-> ->].
  apply bind_ok in E as (r & s3 & E3 & E). apply bind_ok in E3 as (tr & s4 & E4 & E3). apply ret_ok in E3 as [-> ->].
  pose proof E2 as E2'. pose proof E4 as E4'.
  apply (auto_ok Z0) in E2 as (bl & sl & gl & cl & kl & -> & CL).
  apply (auto_ok Z0) in E4 as (br & sr & gr & cr & kr & -> & CR).
  unfold hlist_of in E. apply bind_ok in E as (ll & s5 & E5 & E). apply ret_ok in E as [-> ->].
  assert (K : kerning be bx (Some (TL KHList br sr gr (TChar cr :: kr))) = mret f0) by (destruct bx; try destruct NB; reflexivity).
  cbn [app kern_list hd_error] in E5. rewrite K in E5. cbn [kerning] in E5. unfold mbind, mret in E5.
  rewrite Z0 in E5. cbn [negb] in E5. injection E5 as <- <-.
  unfold parenthesised. do 13 eexists. split; [exact E2'|]. split; [exact E4'|]. repeat split; assumption.
Qed.

(** ** Dropped groups *)
Lemma mfold_ext {X V} (f g : X -> V -> M V) l : (forall x, In x l -> forall v s, f x v s = g x v s) ->
  forall v s, mfold f l v s = mfold g l v s.
Proof.
  induction l as [|x l IH]; intros H v s; [reflexivity|]. cbn [mfold]. unfold mbind.
  rewrite (H x (or_introl eq_refl)). destruct (g x v s) as [[v1 s1]|]; [|reflexivity]. apply IH. intros; apply H; now right.
Qed.
Lemma mfold_map {X Y V} (f : Y -> V -> M V) (g : X -> Y) l : forall v s, mfold f (map g l) v s = mfold (fun x => f (g x)) l v s.
Proof.
  induction l as [|x l IH]; intros v s; [reflexivity|]. cbn [map mfold]. unfold mbind.
  destruct (f (g x) v s) as [[v1 s1]|]; [|reflexivity]. apply IH.
Qed.

Definition same (n : node) : Prop := forall w v s, go w n v s = go w (drop_groups n) v s.

Lemma same_list w l st m s : Forall same l ->
  handle_list be (go w) l st m s = handle_list be (go w) (map drop_groups l) st m s.
Proof.
  intros H. unfold handle_list, mbind. rewrite (mfold_map (go w) drop_groups).
  erewrite (mfold_ext (go w)); [reflexivity|]. intros x I v s1. rewrite Forall_forall in H. now apply H.
Qed.

Lemma same_frac_args ld rd rule sty args st m s :
  Forall (fun z => Forall same (list_children z)) args ->
  handle_frac_args be (go true) ld rd rule sty args st m s =
  handle_frac_args be (go true) ld rd rule sty (map drop_groups args) st m s.
Proof.
  intros H. destruct args as [|x1 args]; [reflexivity|]. inv H. rename H2 into F1, H3 into H.
  destruct x1; try reflexivity; cbn [list_children] in F1.
  destruct args as [|x2 args]; [reflexivity|]. inv H. rename H2 into F2.
  destruct x2; try reflexivity; cbn [list_children] in F2.
  cbn [map drop_groups handle_frac_args]. unfold mbind.
  rewrite (same_list true l) by assumption. destruct (handle_list be (go true) (map drop_groups l) st m s) as [[num s1]|]; [|reflexivity].
  rewrite (same_list true l0) by assumption. reflexivity.
Qed.

Lemma drop_go_both n : same n /\ Forall same (list_children n).
Proof.
  assert (FC : forall l, Forall (fun n => same n /\ Forall same (list_children n)) l -> Forall same l).
  { intros l H. eapply Forall_impl; [|exact H]. cbn. tauto. }
  induction n using node_ind'; cbn [list_children]; split; auto; try apply Forall_nil; try (intros w v s0; reflexivity).
  - intros w v s. cbn [drop_groups]. destruct w; cbn [Mtex.go]; [|reflexivity].
    apply FC in H. rewrite (mfold_map (go true) drop_groups). apply (mfold_ext (go true)).
    intros x I v1 s1. rewrite Forall_forall in H. now apply H.
  - intros w v s. cbn [drop_groups]. destruct nm as [[p name]|]; [|reflexivity]. cbn [Mtex.go].
    unfold mbind at 1 3. destruct (mlift (handler range name) s) as [[[h|] s1]|]; try reflexivity.
    assert (G : Forall (fun z => Forall same (list_children z)) l).
    { eapply Forall_impl; [|exact H]. cbn. tauto. }
    assert (E : forall st m s, handle_macro range be parse_float expr (go true) h p name l st m s =
                               handle_macro range be parse_float expr (go true) h p name (map drop_groups l) st m s).
    { clear s s1. intros st m s. destruct h; cbn [Mtex.handle_macro]; try reflexivity.
      - destruct l as [|x l]; [reflexivity|]. destruct x; try reflexivity. cbn [map drop_groups].
        destruct l0 as [|y l0]; [reflexivity|]. destruct y; reflexivity.
      - unfold handle_frac, mbind. destruct (be_underline be (st_font st) (st_dpi st) s) as [[th s1]|]; [|reflexivity].
        now apply same_frac_args.
      - unfold handle_frac, mbind. destruct (be_underline be (st_font st) (st_dpi st) s) as [[th s1]|]; [|reflexivity].
        now apply same_frac_args.
      - unfold handle_frac, mbind. destruct (be_underline be (st_font st) (st_dpi st) s) as [[th s1]|]; [|reflexivity].
        now apply same_frac_args.
      - now apply same_frac_args.
      - destruct l as [|x1 [|x2 [|x3 l]]]; try reflexivity.
        + inv G. destruct x1; try reflexivity. cbn [list_children] in H2. cbn [map drop_groups handle_sqrt]. unfold mbind.
          rewrite (same_list true l) by assumption. reflexivity.
        + inv G. inv H3. destruct x1; try reflexivity. cbn [list_children] in H2. 
          destruct x2; cbn [list_children] in H4; cbn [map drop_groups handle_sqrt]; unfold mbind;
            rewrite (same_list true l) by assumption; try reflexivity.
          destruct (handle_list be (go true) (map drop_groups l) st m s) as [[r s1]|]; [|reflexivity].
          now rewrite (same_list true l0).
        + destruct x1; try reflexivity; destruct x2; reflexivity.
      - destruct l as [|x1 l]; [reflexivity|]. inv G. destruct x1; try reflexivity. cbn [list_children] in H2.
        cbn [map drop_groups handle_overline]. unfold mbind. rewrite (same_list true l0) by assumption. reflexivity. }
    unfold mbind. rewrite E. reflexivity.
  - intros w v s. cbn [drop_groups Mtex.go]. unfold mbind. apply FC in H.
    assert (E : forall v s, mfold (go false) l v s = mfold (go false)
      (flat_map (fun x => match x with NList _ => [] | _ => [drop_groups x] end) l) v s).
    { clear v s. induction l as [|x l IH]; intros v s; [reflexivity|]. inv H. cbn [mfold flat_map]. unfold mbind.
      destruct x; cbn [app]; try (rewrite H2; cbn [mfold]; unfold mbind;
        match goal with |- context [go false ?y v s] => destruct (go false y v s) as [[v1 s1]|]; [|reflexivity] end; now apply IH).
      unfold mret. cbn [Mtex.go]. now apply IH. }
    now rewrite E.
Qed.

Lemma drop_go n : same n. Proof. apply drop_go_both. Qed.
End Spacing.
