(** Pictures of expressions: the visitor. *)
From Coq Require Import ZArith String Ascii List Bool Lia QArith Qround Qcanon Lqa.
From Verif Require Import Utf8 Token Ast SetTable Parser Symbols PropSymbols TreeSpec Arith Exact OrderLaws Box Ship ShipSpec ShipFacts ShipFacts2
  PackSpec PackFacts ExactFacts PropPack PropShip Mtex MtexTable MtexSpec FracSpec MtexFacts MtexFacts2 MtexFacts4 MtexFacts5 PropMtex ReadSpec ReadFacts
  RadFacts GeomSpec GeomFacts GeomFacts2 SizeSpec SizeFacts PicSpec PicFacts PicFacts2.
Import ListNotations.
Local Open Scope string_scope.
Local Open Scope list_scope.
Local Open Scope Z_scope.

Section Pic3.
Context {S : Type}.
Variable range : Symbols.gset -> list string.
Variable be : @backend exact S.
Variable parse_float : string -> option xq.
Variable M : measures.
Variables (expr : string) (size dpi : Qc).
Notation tnode := (@Box.tnode exact).
Notation state := (@Box.state exact).
Notation face := (face size).
Notation stt typ := (at_font dpi (face typ)).
Hypothesis FR : fair range.
Hypothesis MB : measured_by M size dpi be parse_float.
Notation rep2 := (rep2 M dpi).
Notation hb := (hb dpi).
Notation shapes := (shapes M expr size dpi).

(** ** The visitor *)
Notation go := (go range be parse_float expr).
Definition grows (ps : bool -> string -> list shape) (f : @visitor exact -> Box.M S (@visitor exact)) : Prop := forall ns typ m s v' s',
  f (mk_visitor ns (stt typ) m) s = LOk (v', s') ->
  exists new, v' = mk_visitor (ns ++ new) (stt typ) m /\ Forall2 rep2 (ps m typ) new.

Lemma g_mfold {X} (f : X -> visitor -> Box.M S visitor) (ps : X -> bool -> string -> list shape) l :
  (forall x, In x l -> grows (ps x) (f x)) -> grows (fun m typ => flat_map (fun x => ps x m typ) l) (mfold f l).
Proof.
  induction l as [|x l IH]; intros H ns typ m s v' s' E; cbn [mfold] in E.
  - apply ret_ok in E as [-> _]. exists []. rewrite app_nil_r. split; [reflexivity|constructor].
  - apply bind_ok in E as (v1 & s1 & E1 & E). apply (H x (or_introl eq_refl)) in E1 as (n1 & -> & F1).
    apply IH in E as (n2 & -> & F2); [|intros; apply H; now right].
    exists (n1 ++ n2). rewrite app_assoc. split; [reflexivity|]. cbn [flat_map]. now apply Forall2_app.
Qed.
Lemma g_push (ps : bool -> string -> list shape) (k : state -> bool -> Box.M S tnode) :
  (forall typ m s t s', k (stt typ) m s = LOk (t, s') -> Forall2 rep2 (ps m typ) [t]) ->
  grows ps (fun v => mbind (k (v_state v) (v_math v)) (fun t => mret (push t v))).
Proof.
  intros H ns typ m s v' s' E. cbn [v_state v_math] in E. apply bind_ok in E as (t & s1 & E1 & E). apply ret_ok in E as [-> _].
  exists [t]. split; [reflexivity|]. eapply H; exact E1.
Qed.
Lemma one_solid b t : hb t b -> Forall2 rep2 [(Solid (fst b), snd b)] [t].
Proof. intros H. constructor; [exact (hb_rep2 M dpi _ _ H)|constructor]. Qed.

Definition gz (n : node) : Prop := forall w, grows (fun m typ => shapes w m typ n) (go w n).
Lemma list_size l typ m s t s' : Forall gz l -> handle_list be (go true) l (stt typ) m s = LOk (t, s') ->
  hb t (box_of M (flat_map (shapes true m typ) l)).
Proof.
  intros H E. unfold handle_list in E. apply bind_ok in E as (v & s1 & E1 & E).
  apply (g_mfold (go true) (fun x m typ => shapes true m typ x) l) in E1 as (new & -> & F2).
  - eapply (row_hb be parse_float M size dpi MB); [exact F2|exact E].
  - intros x I. rewrite Forall_forall in H. now apply H.
Qed.

Lemma gz_both n : gz n /\ Forall gz (list_children n).
Proof.
  assert (FC : forall l, Forall (fun n => gz n /\ Forall gz (list_children n)) l -> Forall gz l).
  { intros l H. eapply Forall_impl; [|exact H]. cbn. tauto. }
  assert (BAD : forall n0, (forall w v s, exists e, go w n0 v s = LPanic e) -> gz n0).
  { intros n0 H w ns typ m s v' s' E. destruct (H w (mk_visitor ns (stt typ) m) s) as (e & E2). rewrite E2 in E. discriminate E. }
  induction n using node_ind'; cbn [list_children]; split; auto; try (apply Forall_nil);
    try (apply BAD; intros [] v s0; eexists; reflexivity).
  - intros [] ns typ m s v' s' E; [discriminate E|]. apply ret_ok in E as [-> _]. exists []. rewrite app_nil_r.
    split; [reflexivity|constructor].
  - intros [] ns typ m s v' s' E; cbn [Mtex.go] in E.
    + apply (g_mfold (go true) (fun x m typ => shapes true m typ x) l) in E as (new & -> & F2).
      * exists new. split; [reflexivity|exact F2].
      * intros x I. apply FC in H. rewrite Forall_forall in H. now apply H.
    + apply ret_ok in E as [-> _]. exists []. rewrite app_nil_r. split; [reflexivity|constructor].
  - destruct nm as [[p name]|]; [|apply BAD; intros w v s; eexists; reflexivity].
    intros w ns typ m s v' s' E. cbn [Mtex.go] in E.
    apply bind_ok in E as (h & s1 & EH & E). apply mlift_ok in EH. destruct h as [h|]; [|discriminate E].
    apply (handler_cases _ FR) in EH.
    revert ns typ m s1 v' s' E.
    apply (g_push (fun m typ => shapes w m typ (NMacro (Some (p, name)) l))
             (fun st m => handle_macro range be parse_float expr (go true) h p name l st m)).
    intros typ m s0 t s' E. clear s.
    assert (Q : forall z, In z l -> Forall gz (list_children z)).
    { intros z I. rewrite Forall_forall in H. now destruct (H z I). }
    clear H FC BAD.
    assert (SN : forall h0, one_of ("\hspace" :: spacing_names) h0 = false -> one_of spacing_names h0 = false /\ String.eqb h0 "\hspace" = false).
    { intros h0. unfold one_of. cbn [existsb]. intros HH. apply orb_false_iff in HH. tauto. }
    destruct h; cbn [Mtex.handle_macro] in E.
    + cbn [PicSpec.shapes]. rewrite EH. apply (handle_space2 be parse_float M size dpi MB) in E. constructor; [exact E|constructor].
    + destruct EH as (E1 & E2 & E3). apply SN in E1 as [E1 E4]. cbn [PicSpec.shapes]. rewrite E1, E4, E2.
      unfold one_of, frac_names in E3. cbn [existsb] in E3.
      repeat match type of E3 with _ || _ = false => apply orb_false_iff in E3 as [? E3] end.
      unfold one_of. cbn [existsb].
      repeat match goal with HH : String.eqb name _ = false |- _ => rewrite HH; clear HH end. cbn [orb].
      eapply (symbol2 range be parse_float M expr size dpi FR MB). exact E.
    + subst name. unfold handle_custom_space in E. cbn [PicSpec.shapes].
      change (one_of spacing_names "\hspace") with false. change (String.eqb "\hspace" "\hspace") with true. cbv iota.
      destruct l as [|[] l]; try discriminate E.
      match type of E with context [match ?x with [] => _ | _ => _ end] => destruct x as [|[] ?]; try discriminate E end.
      match type of E with context [parse_float ?x] => destruct (parse_float x) as [q|] eqn:PF; [|discriminate E] end.
      pose proof MB as (_ & _ & _ & MN & _). apply MN in PF. subst q. apply (make_space2 be parse_float M size dpi MB) in E.
      constructor; [exact E|constructor].
    + destruct EH as [E1 E2]. apply SN in E1 as [E1 E4]. cbn [PicSpec.shapes]. rewrite E1, E4, E2.
      unfold handle_function in E. apply bind_ok in E as (ts & s1 & E5 & E).
      change (set_type "rm" (stt typ)) with (stt "rm") in E5. apply (chars2 be parse_float M size dpi MB) in E5. apply (one_solid (box_of M _)). eapply (row_hb be parse_float M size dpi MB); [exact E5|exact E].
    + subst name. unfold handle_frac in E. apply bind_ok in E as (th & s1 & E1 & E).
      pose proof MB as (_ & _ & ML & _). apply ML in E1 as [-> TH]; [|reflexivity]. unfold handle_frac_args in E.
      destruct l as [|[| | |a l1 b1| | | | | | | |] [|[| | |a2 l2 b2| | | | | | | |] l]]; try discriminate E.
      apply bind_ok in E as (num & s2 & E2 & E). apply bind_ok in E as (den & s3 & E3 & E).
      apply list_size in E2; [|apply (Q _ (or_introl eq_refl))]. apply list_size in E3; [|apply (Q _ (or_intror (or_introl eq_refl)))].
      pose proof (genfrac_hb be parse_float M size dpi MB _ _ _ _ _ _ _ _ _ _ _ _ E2 E3 TH (or_introl (conj eq_refl eq_refl)) E) as HX.
      exact (one_solid _ _ HX).
    + subst name. unfold handle_frac in E. apply bind_ok in E as (th & s1 & E1 & E).
      pose proof MB as (_ & _ & ML & _). apply ML in E1 as [-> TH]; [|reflexivity]. unfold handle_frac_args in E.
      destruct l as [|[| | |a l1 b1| | | | | | | |] [|[| | |a2 l2 b2| | | | | | | |] l]]; try discriminate E.
      apply bind_ok in E as (num & s2 & E2 & E). apply bind_ok in E as (den & s3 & E3 & E).
      apply list_size in E2; [|apply (Q _ (or_introl eq_refl))]. apply list_size in E3; [|apply (Q _ (or_intror (or_introl eq_refl)))].
      pose proof (genfrac_hb be parse_float M size dpi MB _ _ _ _ _ _ _ _ _ _ _ _ E2 E3 TH (or_introl (conj eq_refl eq_refl)) E) as HX.
      exact (one_solid _ _ HX).
    + subst name. unfold handle_frac in E. apply bind_ok in E as (th & s1 & E1 & E).
      pose proof MB as (_ & _ & ML & _). apply ML in E1 as [-> TH]; [|reflexivity]. unfold handle_frac_args in E.
      destruct l as [|[| | |a l1 b1| | | | | | | |] [|[| | |a2 l2 b2| | | | | | | |] l]]; try discriminate E.
      apply bind_ok in E as (num & s2 & E2 & E). apply bind_ok in E as (den & s3 & E3 & E).
      apply list_size in E2; [|apply (Q _ (or_introl eq_refl))]. apply list_size in E3; [|apply (Q _ (or_intror (or_introl eq_refl)))].
      pose proof (genfrac_hb be parse_float M size dpi MB _ _ _ _ _ _ _ _ _ _ _ _ E2 E3 TH (or_introl (conj eq_refl eq_refl)) E) as HX.
      exact (one_solid _ _ HX).
    + subst name. unfold handle_binom, handle_frac_args in E.
      destruct l as [|[| | |a l1 b1| | | | | | | |] [|[| | |a2 l2 b2| | | | | | | |] l]]; try discriminate E.
      apply bind_ok in E as (num & s2 & E2 & E). apply bind_ok in E as (den & s3 & E3 & E).
      apply list_size in E2; [|apply (Q _ (or_introl eq_refl))]. apply list_size in E3; [|apply (Q _ (or_intror (or_introl eq_refl)))].
      rewrite f0_exact in E.
      pose proof (genfrac_hb be parse_float M size dpi MB _ _ _ _ _ _ _ _ _ _ _ _ E2 E3 (Qcle_refl _) (or_intror (conj eq_refl (conj eq_refl eq_refl))) E) as HX.
      exact (one_solid _ _ HX).
    + subst name. unfold handle_sqrt in E.
      destruct l as [|x1 [|x2 [|x3 l]]]; [discriminate E| | |destruct x1, x2; discriminate E].
      * destruct x1; try discriminate E. apply bind_ok in E as (body & s1 & E1 & E).
        apply list_size in E1; [|apply (Q _ (or_introl eq_refl))].
        pose proof (sqrt_hb be parse_float M size dpi MB None None _ _ _ _ _ _ I E1 E) as HX. constructor; [exact HX|constructor].
      * destruct x1; try discriminate E.
        destruct x2; try (apply bind_ok in E as (? & ? & _ & E); discriminate E).
        apply bind_ok in E as (root & s1 & E1 & E). apply bind_ok in E as (body & s2 & E2 & E).
        apply list_size in E1; [|apply (Q _ (or_introl eq_refl))]. apply list_size in E2; [|apply (Q _ (or_intror (or_introl eq_refl)))].
        pose proof (sqrt_hb be parse_float M size dpi MB (Some root) (Some _) _ _ _ _ _ _ E1 E2 E) as HX. constructor; [exact HX|constructor].
    + subst name. unfold handle_overline in E. destruct l as [|x1 l]; [discriminate E|]. destruct x1; try discriminate E.
      apply bind_ok in E as (body & s1 & E1 & E). apply list_size in E1; [|apply (Q _ (or_introl eq_refl))].
      pose proof (overline_hb be parse_float M size dpi MB _ _ _ _ _ _ E1 E) as HX. exact (one_solid _ _ HX).
  - intros w ns typ m s v' s' E. cbn [Mtex.go] in E. apply bind_ok in E as (v1 & s1 & E1 & E).
    apply ret_ok in E as [-> _]. cbn [v_nodes v_state v_math] in *. change (set_type "it" (stt typ)) with (stt "it") in E1.
    apply (g_mfold (go false) (fun x m typ => shapes false m typ x) l) in E1 as (new & -> & F2).
    + exists new. cbn [v_nodes v_state]. split; [reflexivity|exact F2].
    + intros x I. apply FC in H. rewrite Forall_forall in H. now apply H.
  - intros w ns typ m s0 v' s' E. cbn [Mtex.go v_state v_math] in E. apply bind_ok in E as (ts & s1 & E1 & E).
    apply bind_ok in E as (t & s2 & E2 & E). apply ret_ok in E as [-> _]. exists [t]. split; [reflexivity|].
    apply (chars2 be parse_float M size dpi MB) in E1. apply (one_solid (box_of M _)). eapply (row_hb be parse_float M size dpi MB); [exact E1|exact E2].
  - intros w ns typ m s0 v' s' E. cbn [Mtex.go] in E. change (rune_strings s) with (letters s) in E.
    apply (g_mfold (fun x v => mbind (handle_symbol range be expr x 0 (v_state v) (v_math v)) (fun t => mret (push t v)))
             (fun x m typ => symbol_shape M expr size m typ x 0) (letters s)) in E as (new & -> & F2).
    + exists new. split; [reflexivity|exact F2].
    + intros x _. apply (g_push (fun m typ => symbol_shape M expr size m typ x 0) (fun st m => handle_symbol range be expr x 0 st m)).
      intros * E0. eapply (symbol2 range be parse_float M expr size dpi FR MB). exact E0.
  - intros w ns typ m s0 v' s' E. cbn [Mtex.go v_math v_state] in E. cbn [PicSpec.shapes]. destruct m.
    + apply bind_ok in E as (h & s1 & EH & E). apply mlift_ok in EH. destruct h as [h|]; [|discriminate E].
      apply (handler_cases _ FR) in EH.
      apply bind_ok in E as (t & s2 & E2 & E). apply ret_ok in E as [-> _]. exists [t]. split; [reflexivity|].
      destruct h; cbn [handle_sym] in E2; try discriminate E2.
      * rewrite EH. apply (handle_space2 be parse_float M size dpi MB) in E2. constructor; [exact E2|constructor].
      * destruct EH as (E1 & _ & _). unfold one_of in E1. cbn [existsb] in E1. apply orb_false_iff in E1 as [_ E1].
        unfold one_of at 1. rewrite E1. eapply (symbol2 range be parse_float M expr size dpi FR MB). exact E2.
    + apply bind_ok in E as (c & s2 & E2 & E). apply ret_ok in E as [-> _]. exists [TChar c]. split; [reflexivity|].
      apply (char_rep2 be parse_float M size dpi MB _ _ size) in E2; [|reflexivity]. constructor; [exact E2|constructor].
Qed.

Lemma typeset_hb l s t s' : typeset range be parse_float expr l (Fin size) (Fin dpi) s = LOk (t, s') ->
  hb t (box_of M (flat_map (shapes true false "rm") l)).
Proof.
  unfold typeset. intros E. apply bind_ok in E as (v & s1 & E1 & E).
  destruct (gz_both (NList l)) as [G _]. change (mk_state (mk_font "default" "rm" (Fin size)) (Fin dpi)) with (stt "rm") in E1.
  apply (G true) in E1 as (new & -> & F2). eapply (row_hb be parse_float M size dpi MB); [exact F2|exact E].
Qed.

End Pic3.
