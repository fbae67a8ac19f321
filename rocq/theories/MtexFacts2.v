(** Facts about the mtex visitor. *)
From Coq Require Import ZArith String Ascii List Bool Lia.
From Verif Require Import Utf8 Utf8Facts Token Ast MacroTable SymTable SetTable MtexTable Parser Grammar Stream Symbols
  PropSymbols TreeSpec Arith Box Ship ShipSpec ShipFacts ShipFacts2 Mtex MtexSpec MtexFacts.
Import ListNotations.
Local Open Scope string_scope.
Local Open Scope list_scope.
Local Open Scope Z_scope.

Section Go.
Context {A : arith} {S : Type}.
Variable range : Symbols.gset -> list string.
Hypothesis FR : fair range.
Variable be : @backend A S.
Variable parse_float : string -> option (Arith.F A).
Variable expr : string.
Notation tnode := (@Box.tnode A).
Notation state := (@Box.state A).
Notation visitor := (@visitor A).
Notation go := (go range be parse_float expr).
Notation M := (@M S).
Notation handle_list := (handle_list be).
Notation handle_macro := (handle_macro range be parse_float expr).

(** ** The visitor only appends *)
Definition out (f : visitor -> M visitor) : Prop := forall ns st m s,
  f (mk_visitor ns st m) s =
  match f (mk_visitor [] st m) s with
  | LOk (v, s') => LOk (mk_visitor (ns ++ v_nodes v) st m, s')
  | LPanic e => LPanic e
  end.

Lemma out_nil f st m s v s' : out f -> f (mk_visitor [] st m) s = LOk (v, s') -> v = mk_visitor (v_nodes v) st m.
Proof. intros O H. pose proof (O [] st m s) as E. rewrite H in E. cbn in E. congruence. Qed.

Lemma out_mfold {X} (f : X -> visitor -> M visitor) l : (forall x, In x l -> out (f x)) -> out (mfold f l).
Proof.
  induction l as [|x l IH]; intros H ns st m s.
  - cbn. now rewrite app_nil_r.
  - cbn [mfold]. unfold mbind. rewrite (H x (or_introl eq_refl) ns st m s).
    destruct (f x (mk_visitor [] st m) s) as [[v1 s1]|e] eqn:E; [|reflexivity].
    assert (O : out (mfold f l)) by (apply IH; intros; apply H; now right).
    pose proof (out_nil _ _ _ _ _ _ (H x (or_introl eq_refl)) E) as V. rewrite V.
    rewrite (O (ns ++ v_nodes v1)). rewrite (O (v_nodes v1)).
    destruct (mfold f l (mk_visitor [] st m) s1) as [[v2 s2]|e]; [|reflexivity].
    cbn [v_nodes]. now rewrite app_assoc.
Qed.

Lemma out_push (k : state -> bool -> M tnode) :
  out (fun v => mbind (k (v_state v) (v_math v)) (fun t => mret (push t v))).
Proof.
  intros ns st m s. unfold mbind, push. cbn [v_state v_math v_nodes].
  destruct (k st m s) as [[t s']|e]; reflexivity.
Qed.

Lemma set_type_back st : set_type (f_type (st_font st)) (set_type "it" (A:=A) st) = st.
Proof. now destruct st as [[] ?]. Qed.

Lemma out_go n : forall w, out (go w n).
Proof.
  induction n using node_ind'; intros w.
  - intros ns st m s. destruct w; cbn; [reflexivity|]. now rewrite app_nil_r.
  - destruct w; cbn [Mtex.go].
    + apply (out_mfold (go true) l). intros x I. rewrite Forall_forall in H. now apply H.
    + intros ns st m s. cbn. now rewrite app_nil_r.
  - destruct nm as [[p name]|]; cbn [Mtex.go]; [|intros ns st m s; reflexivity].
    intros ns st m s. unfold mbind at 1 3. destruct (mlift (handler range name) s) as [[[h|] s1]|]; try reflexivity.
    apply (out_push (fun st m => handle_macro (go true) h p name l st m)).
  - intros ns st m s; reflexivity.
  - intros ns st m s; reflexivity.
  - intros ns st m s0; reflexivity.
  - intros ns st m s. cbn [Mtex.go v_nodes v_state v_math]. unfold mbind.
    assert (O : out (mfold (go false) l)).
    { apply out_mfold. intros x I. rewrite Forall_forall in H. now apply H. }
    rewrite (O ns). destruct (mfold (go false) l (mk_visitor [] (set_type "it" st) true) s) as [[v s']|e] eqn:E; [|reflexivity].
    apply out_nil in E; [|assumption]. rewrite E. unfold mret. cbn [v_nodes v_state]. now rewrite set_type_back.
  - cbn [Mtex.go]. intros ns st m s0. cbn [v_state v_math]. unfold mbind at 1 3.
    destruct (new_chars be s st m s0) as [[ts s1]|e]; [|reflexivity].
    unfold mbind, push. destruct (hlist_of be ts true s1) as [[t s2]|e]; reflexivity.
  - cbn [Mtex.go]. apply out_mfold. intros x _. apply out_push.
  - intros ns st m s0. cbn [Mtex.go v_math v_state]. destruct m.
    + unfold mbind at 1 3. destruct (mlift (handler range s) s0) as [[[h|] s1]|]; try reflexivity.
      apply (out_push (fun st m => handle_sym range be expr h p s st m) ns st true).
    + unfold mbind, push. destruct (new_char be s st false s0) as [[c s1]|e]; reflexivity.
  - intros ns st m s; reflexivity.
  - intros ns st m s; reflexivity.
Qed.

(** ** Panics *)
Lemma panics_mfold {X} (f : X -> visitor -> M visitor) l x m :
  (forall y, In y l -> out (f y)) -> In x l ->
  (forall ns st, panics (f x (mk_visitor ns st m))) ->
  forall ns st, panics (mfold f l (mk_visitor ns st m)).
Proof.
  induction l as [|y l IH]; intros O I P ns st; [destruct I|]. cbn [mfold].
  destruct I as [->|I]; [apply panics_bind_l, P|].
  apply panics_bind_r. intros v s s' E.
  rewrite (O y (or_introl eq_refl)) in E. destruct (f y (mk_visitor [] st m) s) as [[v1 s1]|]; [|discriminate].
  inv E. apply IH; auto. intros; apply O; now right.
Qed.

Lemma panics_list w l x m :
  In x l -> (forall ns st, panics (go w x (mk_visitor ns st m))) ->
  forall st, panics (Mtex.handle_list be (go w) l st m).
Proof.
  intros I P st. unfold Mtex.handle_list. apply panics_bind_l. eapply panics_mfold; eauto. intros; apply out_go.
Qed.

Lemma handler_known name h : handler id_range name = LOk (Some h) -> handler range name = LOk (Some h).
Proof. now rewrite (handler_range range name FR). Qed.

(** The visitor on a macro with a known handler. *)
Lemma go_macro w p name args h v s : handler id_range name = LOk (Some h) ->
  go w (NMacro (Some (p, name)) args) v s =
  mbind (handle_macro (go true) h p name args (v_state v) (v_math v)) (fun t => mret (push t v)) s.
Proof. intros H. cbn [Mtex.go]. now rewrite (handler_known name h H). Qed.

Definition is_float (v : string) : Prop := parse_float v <> None.

Lemma panics_frac_args ld rd rule sty args st m l x name :
  In name ["\frac"; "\dfrac"; "\tfrac"; "\binom"] -> typeset_arg name args l -> In x l ->
  (forall ns st, panics (go true x (mk_visitor ns st m))) ->
  panics (handle_frac_args be (go true) ld rd rule sty args st m).
Proof.
  intros N TA I P. inv TA; try (cbn in N; intuition discriminate).
  - destruct args0 as [|y args0]; [apply panics_panic|].
    destruct y; try apply panics_panic. cbn [handle_frac_args].
    apply panics_bind_l. eapply panics_list; eassumption.
  - destruct x0; try apply panics_panic. cbn [handle_frac_args].
    apply panics_bind_r'. intros num. apply panics_bind_l. eapply panics_list; eassumption.
Qed.

Lemma reach_panics o m n m' y : reach o m n m' y -> refused is_float m' y ->
  forall ns st, panics (go o n (mk_visitor ns st m)).
Proof.
  induction 1 as [o m n|m l x m' y I R IH|o m d a l b x m' y I R IH|o m p name args l x m' y TA I R IH];
    intros RF ns st.
  - inv RF.
    + intros s. eexists. reflexivity.
    + intros s. eexists. reflexivity.
    + cbn [Mtex.go v_math v_state]. cbn [In bad_math_symbols] in H.
      assert (N : handler range t = LOk None \/
        (handler range t = LOk (Some HSymbol) /\ is_spaced range t = false /\
         set_has (new_set PunctuationSymbols_list) t = true /\ String.eqb t "." = false)).
      { rewrite (handler_range range t FR), (is_spaced_range range t FR).
        repeat (destruct H as [<-|H]; [vm_compute; intuition congruence|]). destruct H. }
      destruct N as [->|(-> & N1 & N2 & N3)].
      * cbn [mlift]. intros s. eexists. reflexivity.
      * cbn [mlift]. apply panics_bind_r'. intros [h|]; [|apply panics_panic].
        apply panics_bind_l. destruct h; try apply panics_panic; cbn [handle_sym].
        -- unfold handle_space. assert (Z : assoc t space_width = None).
           { repeat (destruct H as [<-|H]; [vm_compute; reflexivity|]). destruct H. }
           rewrite Z. apply panics_panic.
        -- unfold handle_symbol. apply panics_bind_r'. intros ch. rewrite N1, N2, N3. apply panics_panic.
    + intros s. rewrite (go_macro o p t args HSymbol).
      2:{ cbn [In] in H. destruct H as [<-|[<-|[]]]; vm_compute; reflexivity. }
      cbn [Mtex.handle_macro v_state v_math]. apply panics_bind_l.
      unfold handle_symbol. apply panics_bind_r'. intros ch.
      rewrite (is_spaced_range range t FR). cbn [In] in H.
      destruct H as [<-|[<-|[]]]; vm_compute; eauto.
    + intros s. rewrite (go_macro o p "\hspace" args HCustom) by (vm_compute; reflexivity).
      cbn [Mtex.handle_macro v_state v_math]. apply panics_bind_l.
      destruct args as [|x args]; [apply panics_panic|].
      destruct x as [| | |a l b| | | | | | | |]; try apply panics_panic.
      destruct l as [|x l]; [apply panics_panic|].
      destruct x as [| | | | | | | |q v| | |]; try apply panics_panic.
      cbn [handle_custom_space]. destruct (parse_float v) as [z|] eqn:E; [|apply panics_panic].
      exfalso. eapply H; [reflexivity|]. unfold is_float. congruence.
  - cbn [Mtex.go]. eapply (panics_mfold (go true)); eauto. intros; apply out_go.
  - cbn [Mtex.go v_nodes v_state]. apply panics_bind_l.
    eapply (panics_mfold (go false)); eauto. intros; apply out_go.
  - intros s. revert s.
    assert (P : forall ns st, panics (go true x (mk_visitor ns st m))) by auto.
    inversion TA as [nm a l0 b ar IN E1 E2 E3|nm x0 a l0 b ar IN E1 E2 E3|a l0 b ar E1 E2 E3|a l0 b ar E1 E2 E3|x0 a l0 b ar E1 E2 E3|a l0 b ar E1 E2 E3];
      subst; intros s.
    1,2: assert (H : exists h, handler id_range name = LOk (Some h) /\ In h [HFrac; HDFrac; HTFrac; HBinom])
      by (cbn [In] in IN; repeat (destruct IN as [<-|IN]; [eexists; vm_compute; split; [reflexivity|tauto]|]); destruct IN);
      destruct H as (h & Hh & Ih); rewrite (go_macro o p name _ h) by assumption; apply panics_bind_l;
      cbn [v_state v_math]; cbn [In] in Ih;
      repeat (destruct Ih as [<-|Ih]; [cbn [Mtex.handle_macro]; unfold handle_frac, handle_binom;
        first [apply panics_bind_r'; intros th|idtac]; eapply panics_frac_args; eassumption|]); destruct Ih.
    1,2,3: rewrite (go_macro o p "\sqrt" _ HSqrt) by (vm_compute; reflexivity); apply panics_bind_l;
      cbn [v_state v_math Mtex.handle_macro].
    + destruct ar as [|y0 ar]; [apply panics_panic|]. destruct ar as [|y2 ar]; [|destruct y0; apply panics_panic].
      destruct y0; cbn [handle_sqrt]; apply panics_bind_l; eapply panics_list; eassumption.
    + destruct ar as [|y0 ar].
      * cbn [handle_sqrt]. apply panics_bind_l. eapply panics_list; eassumption.
      * destruct ar; apply panics_panic.
    + destruct ar as [|y0 ar]; [|destruct x0; apply panics_panic].
      destruct x0; try apply panics_panic. cbn [handle_sqrt]. apply panics_bind_r'. intros root.
      apply panics_bind_l. eapply panics_list; eassumption.
    + rewrite (go_macro o p "\overline" _ HOverline) by (vm_compute; reflexivity); apply panics_bind_l;
      cbn [v_state v_math Mtex.handle_macro handle_overline]. apply panics_bind_l. eapply panics_list; eassumption.
Qed.

(** ** Success *)
Hypothesis T : total_backend be.

Definition numeric_text (t : string) : Prop :=
  forall x, In x (rune_strings t) -> ~ In x [","; ";"; "!"; "\ldotp"; "\cdotp"].

Definition in_expr (p : Z) : Prop := 0 <= p <= zlen expr.

Definition fine (m : bool) (y : node) : Prop :=
  match y with
  | NList _ | NMath _ _ _ _ | NWord _ _ => True
  | NSym p t => m = true -> In t good_math_symbols /\ in_expr p
  | NLit _ t => numeric_text t
  | NMacro (Some (p, name)) args =>
    in_expr p /\ (exists sg, known_macro name = Some sg /\ args_match sg args) /\
    ~ refused is_float m y
  | _ => False
  end.

Lemma slice_ok p : in_expr p -> (exists a, slice expr 0 p = Some a) /\ (exists a, slice expr p (zlen expr) = Some a).
Proof.
  unfold in_expr, slice, zlen. intros [H1 H2]. set (k := Z.of_nat (String.length expr)) in *.
  replace ((0 <=? 0) && (0 <=? p) && (p <=? k)) with true by (symmetry; lia).
  replace ((0 <=? p) && (p <=? k) && (k <=? k)) with true by (symmetry; lia).
  split; eexists; reflexivity.
Qed.

Lemma t_handle_symbol sym pos st m :
  in_expr pos -> ~ In sym [","; ";"; "!"; "\ldotp"; "\cdotp"] -> total (handle_symbol range be expr sym pos st m).
Proof.
  intros P N. destruct (slice_ok pos P) as [(a1 & E1) (a2 & E2)].
  unfold handle_symbol. apply total_bind; [now apply t_new_char|]. intros ch.
  destruct (is_spaced range sym).
  - rewrite E1. cbn [obool_lres mlift]. apply total_bind; [apply total_ret|]. intros before.
    destruct (_ && _); [apply total_ret|].
    apply total_bind; [now apply t_make_space|]. intros k1. apply total_bind; [now apply t_make_space|]. intros k2.
    now apply t_hlist_of.
  - destruct (set_has (new_set PunctuationSymbols_list) sym) eqn:E; [|apply total_ret].
    destruct (String.eqb_spec sym ".") as [->|Nd].
    + rewrite E2. cbn [obool_lres mlift]. apply total_bind; [apply total_ret|]. intros after.
      destruct (_ && _); [apply total_ret|]. apply total_bind; [now apply t_make_space|]. intros k. now apply t_hlist_of.
    + exfalso. apply C20_new_set_has in E. cbn [In PunctuationSymbols_list] in E. cbn [In] in N. intuition congruence.
Qed.

Lemma t_new_chars t st m : total (new_chars be t st m).
Proof.
  unfold new_chars. apply t_mmap. intros x _. apply total_bind; [now apply t_new_char|intros; apply total_ret].
Qed.

Lemma t_mfold {X} (f : X -> visitor -> M visitor) l m :
  (forall x, In x l -> out (f x)) ->
  (forall x, In x l -> forall ns st, total (f x (mk_visitor ns st m))) ->
  forall ns st, total (mfold f l (mk_visitor ns st m)).
Proof.
  induction l as [|x l IH]; intros O H ns st; cbn [mfold]; [apply total_ret|].
  apply total_bind'; [apply H; now left|]. intros v s s' E.
  rewrite (O x (or_introl eq_refl)) in E. destruct (f x (mk_visitor [] st m) s) as [[v1 s1]|]; [|discriminate].
  inv E. apply IH; intros; [apply O|apply H]; now right.
Qed.

Lemma t_handle_list w l m st :
  (forall x, In x l -> forall ns st, total (go w x (mk_visitor ns st m))) ->
  total (Mtex.handle_list be (go w) l st m).
Proof.
  intros H. unfold Mtex.handle_list. apply total_bind; [|intros; now apply t_hlist_of].
  apply t_mfold; [intros; apply out_go|assumption].
Qed.

Lemma am_nil_inv l : args_match [] l -> l = [].
Proof. intros H. now inversion H. Qed.
Lemma am_req_inv sg l : args_match (Req :: sg) l -> exists a l1 b l2, l = NArg a l1 b :: l2 /\ args_match sg l2.
Proof. intros H. inversion H; subst. eauto 6. Qed.
Lemma am_opt_inv sg l : args_match (Opt :: sg) l ->
  args_match sg l \/ exists a l1 b l2, l = NOptArg a l1 b :: l2 /\ args_match sg l2.
Proof. intros H. inversion H; subst; eauto 8. Qed.

Definition succeeds (n : node) : Prop := forall o m ns st,
  (forall m' y, reach o m n m' y -> fine m' y) -> total (go o n (mk_visitor ns st m)).

Lemma t_go_both n : succeeds n /\ Forall succeeds (list_children n).
Proof.
  assert (FC : forall l, Forall (fun n => succeeds n /\ Forall succeeds (list_children n)) l -> Forall succeeds l).
  { intros l H. eapply Forall_impl; [|exact H]. cbn. tauto. }
  assert (BAD : forall n0, (forall m, ~ fine m n0) -> succeeds n0).
  { intros n0 H o m ns st R. destruct (H m). apply R. constructor. }
  induction n using node_ind'; cbn [list_children]; split; auto; try (constructor; fail);
    try (apply BAD; intros m F; exact F).
  - intros o m ns st R. destruct o; cbn [Mtex.go]; [|apply total_ret].
    apply (t_mfold (go true)); [intros; apply out_go|]. intros x I ns' st'.
    apply FC in H. rewrite Forall_forall in H. apply (H x I). intros m' y Ry. apply R. econstructor; eassumption.
  - intros o m ns st R. pose proof (R m _ (r_self _ _ _)) as F0.
    destruct nm as [[p name]|]; [|destruct F0]. destruct F0 as (IN & (sg & K & AM) & NR).
    pose proof (macro_checked name sg K) as MC. unfold macro_check in MC.
    destruct (handler id_range name) as [[h|]|] eqn:Hh; try discriminate.
    apply andb_prop in MC as [MC Hs]. apply andb_prop in MC as [Hk Hp].
    intros s. rewrite (go_macro o p name l h) by assumption. cbn [v_state v_math].
    revert s. change (total (mbind (handle_macro (go true) h p name l st m) (fun t => mret (push t (mk_visitor ns st m))))).
    apply total_bind; [|intros; apply total_ret].
    assert (Q : forall l', typeset_arg name l l' -> (exists a b, In (NArg a l' b) l \/ In (NOptArg a l' b) l) ->
                total (Mtex.handle_list be (go true) l' st m)).
    { intros l' TA (a & b & Hin). apply t_handle_list. intros x I ns' st'.
      rewrite Forall_forall in H.
      assert (Sx : succeeds x).
      { destruct Hin as [Hin|Hin]; apply H in Hin as [_ Hin]; cbn [list_children] in Hin;
        rewrite Forall_forall in Hin; auto. }
      apply Sx. intros m' y Ry. apply R. econstructor; eassumption. }
    assert (FR2 : In name ["\frac"; "\dfrac"; "\tfrac"; "\binom"] ->
              forall ld rd rule sty, total (handle_frac_args be (go true) ld rd rule sty l st m)).
    { intros Hn ld rd rule sty.
      assert (Es : slots_of name = Some [Req; Req]).
      { unfold slots_of. now rewrite (proj1 (in_existsb _ _) Hn). }
      rewrite Es, K in Hs. apply slots_eqb_eq in Hs. subst sg.
      apply am_req_inv in AM as (a & l1 & b & r1 & -> & AM). apply am_req_inv in AM as (a0 & l2 & b0 & r2 & -> & AM).
      apply am_nil_inv in AM as ->. cbn [handle_frac_args]. apply total_bind; [apply Q; [now apply ta_num|exists a, b; left; now left]|]. intros num.
      apply total_bind; [apply Q; [now apply ta_den|exists a0, b0; left; right; now left]|]. intros den.
      now apply t_genfrac. }
    destruct h; cbn [kind_of] in Hk; cbn [Mtex.handle_macro].
    + unfold handle_space. destruct (assoc name space_width) as [[x y]|]; [now apply t_make_space|discriminate].
    + apply t_handle_symbol; [assumption|]. intros I. apply NR.
      apply orb_prop in Hp as [Hp|Hp].
      * assert (In name PunctuationSymbols_list) as I2 by (cbn [In] in I |- *; cbn [In PunctuationSymbols_list]; tauto).
        apply C20_new_set_has in I2. rewrite I2 in Hp. discriminate.
      * apply in_existsb in Hp. now apply rf_dot.
    + apply String.eqb_eq in Hk. subst name.
      assert (D : exists a q v l0 b args', l = NArg a (NLit q v :: l0) b :: args' /\ parse_float v <> None).
      { destruct l as [|x l].
        { exfalso. apply NR. apply rf_hspace. intros ? ? ? ? ? ? EE; discriminate EE. }
        destruct x as [| | |a l0 b| | | | | | | |]; try (exfalso; apply NR; apply rf_hspace; intros ? ? ? ? ? ? EE; discriminate EE).
        destruct l0 as [|y l0]; [exfalso; apply NR; apply rf_hspace; intros ? ? ? ? ? ? EE; discriminate EE|].
        destruct y as [| | | | | | | |q v| | |]; try (exfalso; apply NR; apply rf_hspace; intros ? ? ? ? ? ? EE; discriminate EE).
        destruct (parse_float v) eqn:E.
        - exists a, q, v, l0, b, l. split; [reflexivity|]. congruence.
        - exfalso. apply NR. apply rf_hspace. intros. inv H0. unfold is_float. congruence. }
      destruct D as (a & q & v & l0 & b & args' & -> & D). cbn [handle_custom_space].
      destruct (parse_float v); [now apply t_make_space|congruence].
    + unfold handle_function. apply total_bind; [apply t_new_chars|]. intros; now apply t_hlist_of.
    + apply String.eqb_eq in Hk. unfold handle_frac. apply total_bind; [apply T|]. intros th.
      apply FR2. rewrite Hk. cbn [In]. tauto.
    + apply String.eqb_eq in Hk. unfold handle_frac. apply total_bind; [apply T|]. intros th.
      apply FR2. rewrite Hk. cbn [In]. tauto.
    + apply String.eqb_eq in Hk. unfold handle_frac. apply total_bind; [apply T|]. intros th.
      apply FR2. rewrite Hk. cbn [In]. tauto.
    + apply String.eqb_eq in Hk. unfold handle_binom.
      apply FR2. rewrite Hk. cbn [In]. tauto.
    + apply String.eqb_eq in Hk. subst name.
      assert (Es : slots_of "\sqrt" = Some [Opt; Req]) by reflexivity.
      rewrite Es, K in Hs. apply slots_eqb_eq in Hs. subst sg.
      apply am_opt_inv in AM as [AM|(a & l1 & b & r1 & -> & AM)];
        apply am_req_inv in AM as (a0 & l2 & b0 & r2 & -> & AM); apply am_nil_inv in AM as ->; cbn [handle_sqrt].
      2:{
        apply total_bind; [apply Q; [apply ta_root|exists a, b; right; left; reflexivity]|]. intros root.
        apply total_bind; [apply Q; [apply ta_body2|exists a0, b0; left; right; left; reflexivity]|]. intros body.
        now apply t_sqrt_box. }
      apply total_bind; [apply Q; [apply ta_body1|exists a0, b0; left; left; reflexivity]|]. intros body.
      now apply t_sqrt_box.
    + apply String.eqb_eq in Hk. subst name.
      assert (Es : slots_of "\overline" = Some [Req]) by reflexivity.
      rewrite Es, K in Hs. apply slots_eqb_eq in Hs. subst sg.
      apply am_req_inv in AM as (a & l1 & b & r1 & -> & AM). cbn [handle_overline].
      apply total_bind; [apply Q; [apply ta_over|exists a, b; left; left; reflexivity]|]. intros body.
      now apply t_overline_box.
  - intros o m ns st R. cbn [Mtex.go v_nodes v_state v_math]. apply total_bind; [|intros; apply total_ret].
    apply (t_mfold (go false)); [intros; apply out_go|]. intros x I ns' st'.
    apply FC in H. rewrite Forall_forall in H. apply (H x I). intros m' y Ry. apply R. econstructor; eassumption.
  - intros o m ns st R. cbn [Mtex.go]. apply total_bind; [apply t_new_chars|]. intros ts.
    apply total_bind; [now apply t_hlist_of|]. intros. apply total_ret.
  - intros o m ns st R. pose proof (R m _ (r_self _ _ _)) as F0. cbn [fine] in F0.
    cbn [Mtex.go].
    apply (t_mfold (fun x v => mbind (handle_symbol range be expr x 0 (v_state v) (v_math v)) (fun t => mret (push t v)))).
    + intros x _. apply out_push.
    + intros x I ns' st'. apply total_bind; [|intros; apply total_ret].
      apply t_handle_symbol; [|now apply F0]. unfold in_expr. pose proof (zlen_nonneg expr). lia.
  - intros o m ns st R. pose proof (R m _ (r_self _ _ _)) as F0. cbn [fine] in F0.
    cbn [Mtex.go v_math v_state]. destruct m.
    + destruct (F0 eq_refl) as [I P].
      assert (N : handler range s = LOk (Some HSymbol) /\ ~ In s [","; ";"; "!"; "\ldotp"; "\cdotp"]).
      { rewrite (handler_range range s FR). cbn [In good_math_symbols] in I.
        repeat (destruct I as [<-|I]; [split; [vm_compute; reflexivity|cbn [In]; intuition discriminate]|]). destruct I. }
      destruct N as [-> N]. cbn [mlift]. apply total_bind'; [apply total_ret|]. intros h s1 s2 E. apply ret_ok in E as [-> _].
      apply total_bind; [|intros; apply total_ret]. cbn [handle_sym]. now apply t_handle_symbol.
    + apply total_bind; [now apply t_new_char|]. intros. apply total_ret.
Qed.

Lemma t_go n : succeeds n. Proof. apply t_go_both. Qed.

End Go.
