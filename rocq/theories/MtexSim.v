(** Two backends that answer alike typeset alike: a simulation carried through the
    whole typesetting of an expression. *)
From Coq Require Import ZArith String Ascii List Bool Lia.
From Verif Require Import Utf8 Token Ast Parser Symbols TreeSpec Arith Box Ship ShipFacts2 Mtex MtexSpec MtexFacts MtexFacts2 MtexFacts4 MtexHoare.
Import ListNotations.
Local Open Scope string_scope.
Local Open Scope list_scope.
Local Open Scope Z_scope.

Section Sim.
Context {A : arith} {S1 S2 : Type}.
Variable range : Symbols.gset -> list string.
Variable b1 : @backend A S1.
Variable b2 : @backend A S2.
Variable parse_float : string -> option (Arith.F A).
Variable expr : string.
Notation tnode := (@Box.tnode A).
Notation state := (@Box.state A).
Notation visitor := (@visitor A).
Notation go1 := (go range b1 parse_float expr true).
Notation go2 := (go range b2 parse_float expr true).
(** [R]: how the states are related; [G]: the math flags in use. *)
Variable R : S1 -> S2 -> Prop.
Variable G : bool -> Prop.

(** No accents (which mtex does not make). *)
Notation plain := (tq (fun (_ : unit) (_ : @Box.tchar A) => True) tt).
Notation plains := (tql (fun (_ : unit) (_ : @Box.tchar A) => True) tt).

Lemma plains_in l x : plains l -> In x l -> plain x.
Proof. induction l as [|y l IH]; cbn; [contradiction|]. intros [H1 H2] [->|H]; auto. Qed.
Lemma plains_app l l' : plains l /\ plains l' -> plains (l ++ l').
Proof. induction l as [|y l IH]; cbn; [tauto|]. intros ((H1 & H2) & H3). split; [exact H1|]. apply IH. auto. Qed.

(** The same value, with [P], and related states; or the same panic. *)
Definition alike {X} (P : X -> Prop) (a : lres (X * S1)) (b : lres (X * S2)) : Prop :=
  match a, b with
  | LOk (x, s), LOk (y, s') => x = y /\ P x /\ R s s'
  | LPanic e, LPanic e' => e = e'
  | _, _ => False
  end.
Definition sim {X} (m1 : @M S1 X) (m2 : @M S2 X) (P : X -> Prop) : Prop := forall s s', R s s' -> alike P (m1 s) (m2 s').
Definition any {X} : X -> Prop := fun _ => True.

Record sims : Prop := mk_sims {
  s_true : G true;
  s_metrics : forall sym ft dpi m, G m -> sim (be_metrics b1 sym ft dpi m) (be_metrics b2 sym ft dpi m) any;
  s_kern : forall f1 c1 f2 c2 dpi, sim (be_kern b1 f1 c1 f2 c2 dpi) (be_kern b2 f1 c1 f2 c2 dpi) any;
  s_xheight : forall ft dpi, sim (be_xheight b1 ft dpi) (be_xheight b2 ft dpi) any;
  s_under : forall ft dpi, sim (be_underline b1 ft dpi) (be_underline b2 ft dpi) any }.
Hypothesis SI : sims.

Lemma sim_bind {X Y} (m1 : @M S1 X) m2 P (k1 : X -> @M S1 Y) k2 P' :
  sim m1 m2 P -> (forall x, P x -> sim (k1 x) (k2 x) P') -> sim (mbind m1 k1) (mbind m2 k2) P'.
Proof.
  intros H K s s' HR. specialize (H s s' HR). unfold mbind, alike in *.
  destruct (m1 s) as [[x t]|e], (m2 s') as [[y t']|e']; try contradiction; [|exact H].
  destruct H as (<- & HP & H). exact (K x HP t t' H).
Qed.
Lemma sim_ret {X} (x : X) (P : X -> Prop) : P x -> sim (mret x) (mret x) P.
Proof. intros HP s s' HR. split; [reflexivity|split; [exact HP|exact HR]]. Qed.
Lemma sim_panic {X} e P : sim (X := X) (mpanic e) (mpanic e) P.
Proof. intros s s' HR. reflexivity. Qed.
Lemma sim_lift {X} (r : lres X) : sim (mlift r) (mlift r) any.
Proof. destruct r; [apply sim_ret; exact I|apply sim_panic]. Qed.
Ltac bnd := eapply sim_bind; [|intros ? ?].
Ltac ret := apply sim_ret.
Ltac triv := exact Logic.I.

Lemma sim_char c st m : G m -> sim (new_char b1 c st m) (new_char b2 c st m) any.
Proof. intros HG. unfold new_char. bnd; [apply (s_metrics SI); exact HG|ret; triv]. Qed.
Lemma sim_kerning t n : sim (kerning b1 t n) (kerning b2 t n) any.
Proof.
  unfold kerning. destruct t; try (ret; triv); (apply (sim_bind _ _ any); [|intros; ret; triv]); destruct n as [[]|]; try (ret; triv); apply (s_kern SI).
Qed.
Lemma sim_kern_list l : plains l -> sim (kern_list b1 l) (kern_list b2 l) plains.
Proof.
  induction l as [|x l IH]; intros H; cbn [kern_list]; [ret; triv|]. bnd; [apply sim_kerning|]. bnd; [apply IH, H|ret].
  destruct (negb _); cbn; repeat split; auto; apply H.
Qed.
Lemma sim_hlist l k : plains l -> sim (hlist_of b1 l k) (hlist_of b2 l k) plain.
Proof.
  intros H. unfold hlist_of. apply (sim_bind _ _ plains); [destruct k; [now apply sim_kern_list|now ret]|]. intros r Hr. ret. exact Hr.
Qed.
Lemma sim_vlist (l : list tnode) : plains l -> sim (vlist_of l) (vlist_of l) plain.
Proof.
  intros H. unfold vlist_of. destruct (vpack _ _ _ _) eqn:E; [|apply sim_panic]. ret. eapply tq_vpack; [|exact E]. exact H.
Qed.
Lemma sim_hcentered t : plain t -> sim (hcentered b1 [t]) (hcentered b2 [t]) plain.
Proof. intros H. apply sim_hlist. cbn. auto. Qed.
Lemma sim_hrule st th : sim (hrule b1 st th) (hrule b2 st th) plain.
Proof. unfold hrule. apply (sim_bind _ _ any); [|intros; ret; triv]. destruct (fltb A th f0); [apply (s_under SI)|ret; triv]. Qed.
Lemma sim_space st p : sim (make_space b1 st p) (make_space b2 st p) plain.
Proof. unfold make_space. bnd; [apply (s_metrics SI), (s_true SI)|ret; triv]. Qed.
Lemma sim_mmap {X} (f1 : X -> @M S1 tnode) f2 l : (forall x, In x l -> sim (f1 x) (f2 x) plain) -> sim (mmap f1 l) (mmap f2 l) plains.
Proof.
  intros H. induction l as [|x l IH]; cbn [mmap]; [ret; triv|]. bnd; [apply H; now left|].
  bnd; [apply IH; intros; apply H; now right|ret; cbn; auto].
Qed.
Lemma sim_shrink t : plain t -> sim (shrink b1 t) (shrink b2 t) plain.
Proof.
  induction t using tnode_ind'; intros HP; cbn [shrink]; try (ret; triv); [destruct HP|].
  apply (sim_bind _ _ plains).
  - apply sim_mmap. intros x Ix. rewrite Forall_forall in H. apply H; [exact Ix|]. change (plains l) in HP. exact (plains_in _ _ HP Ix).
  - intros r Hr. ret. destruct (_ <? _); exact Hr.
Qed.
Lemma sim_auto c h d st f : sim (auto_height_char b1 c h d st f) (auto_height_char b2 c h d st f) plain.
Proof.
  unfold auto_height_char. bnd; [apply (s_xheight SI)|]. bnd; [apply sim_char, (s_true SI)|].
  apply (sim_bind _ _ any); [destruct (negb _); [bnd; [apply sim_char, (s_true SI)|ret; triv]|ret; triv]|intros ? _].
  bnd; [apply sim_hlist; cbn; auto|ret; now apply tq_shift].
Qed.
Lemma sim_new_chars txt st m : G m -> sim (new_chars b1 txt st m) (new_chars b2 txt st m) plains.
Proof. intros HG. unfold new_chars. apply sim_mmap. intros x _. bnd; [now apply sim_char|ret; triv]. Qed.
Lemma sim_symbol sym pos st m : G m -> sim (handle_symbol range b1 expr sym pos st m) (handle_symbol range b2 expr sym pos st m) plain.
Proof.
  intros HG. unfold handle_symbol. bnd; [now apply sim_char|]. destruct (is_spaced range sym).
  - bnd; [apply sim_lift|]. destruct (_ && _); [ret; triv|]. bnd; [apply sim_space|]. bnd; [apply sim_space|]. apply sim_hlist. cbn; auto.
  - destruct (set_has _ sym); [|ret; triv]. destruct (String.eqb sym "."); [|apply sim_panic]. bnd; [apply sim_lift|]. destruct (_ && _); [ret; triv|].
    bnd; [apply sim_space|]. apply sim_hlist. cbn; auto.
Qed.
Lemma sim_hspace name st : sim (handle_space b1 name st) (handle_space b2 name st) plain.
Proof. unfold handle_space. destruct (assoc name space_width) as [[]|]; [apply sim_space|apply sim_panic]. Qed.
Lemma sim_custom args st : sim (handle_custom_space b1 parse_float args st) (handle_custom_space b2 parse_float args st) plain.
Proof.
  unfold handle_custom_space. destruct args as [|[| | |a [|[| | | | | | | |q v| | |] l] b| | | | | | | |] args]; try apply sim_panic.
  destruct (parse_float v); [apply sim_space|apply sim_panic].
Qed.
Lemma sim_function name st m : G m -> sim (handle_function b1 name st m) (handle_function b2 name st m) plain.
Proof. intros HG. unfold handle_function. bnd; [now apply sim_new_chars|now apply sim_hlist]. Qed.
Lemma sim_delim ld mid rd st : plain mid -> sim (auto_sized_delimiter b1 ld mid rd st) (auto_sized_delimiter b2 ld mid rd st) plain.
Proof.
  intros HM. unfold auto_sized_delimiter.
  assert (D : forall d h dp, sim (if negb (String.eqb d ".") then mbind (auto_height_char b1 d h dp st (@f0 A)) (fun ahc => mret [ahc]) else mret [])
    (if negb (String.eqb d ".") then mbind (auto_height_char b2 d h dp st (@f0 A)) (fun ahc => mret [ahc]) else mret []) plains).
  { intros d h dp. destruct (negb _); [bnd; [apply sim_auto|ret; cbn; auto]|ret; triv]. }
  bnd; [apply D|]. bnd; [apply D|]. apply sim_hlist. apply plains_app. split; [assumption|]. cbn. auto.
Qed.
Lemma sim_genfrac ld rd rule sty num den st : plain num -> plain den ->
  sim (genfrac b1 ld rd rule sty num den st) (genfrac b2 ld rd rule sty num den st) plain.
Proof.
  intros HN HD. unfold genfrac. bnd; [apply (s_under SI)|].
  apply (sim_bind _ _ plain); [destruct sty; [now ret|now apply sim_shrink]|intros ? ?].
  apply (sim_bind _ _ plain); [destruct sty; [now ret|now apply sim_shrink]|intros ? ?].
  bnd; [now apply sim_hcentered|]. bnd; [now apply sim_hcentered|]. bnd; [apply sim_hrule|].
  bnd; [apply sim_vlist; cbn [tql fold_right]; repeat split; auto; now apply tq_hpack|].
  bnd; [apply (s_metrics SI), (s_true SI)|]. bnd; [apply sim_hlist; cbn [tql fold_right]; repeat split; auto; now apply tq_shift|].
  destruct (_ || _); [now apply sim_delim|now ret].
Qed.
Lemma sim_vpacked h ad lim t : plain t -> sim (mlift (vpack h ad lim t)) (mlift (vpack h ad lim t)) plain.
Proof.
  intros H. destruct (vpack h ad lim t) as [t'|] eqn:E; cbn [mlift]; [|apply sim_panic]. ret. eapply tq_vpack; [|exact E]. exact H.
Qed.
Lemma sim_sqrt root body st : match root with Some r => plain r | None => True end -> plain body ->
  sim (sqrt_box b1 root body st) (sqrt_box b2 root body st) plain.
Proof.
  intros HR HB. unfold sqrt_box. bnd; [apply (s_under SI)|]. bnd; [apply sim_auto|]. bnd; [apply sim_hlist; cbn; auto|]. bnd; [apply sim_hrule|].
  bnd; [apply sim_vlist; cbn [tql fold_right]; repeat split; auto|]. bnd; [now apply sim_vpacked|].
  apply (sim_bind _ _ plain); [destruct root; [bnd; [now apply sim_shrink|now apply sim_shrink]|ret; triv]|intros ? ?].
  bnd; [apply sim_hlist; cbn; auto|]. bnd; [apply sim_vlist; cbn; auto|]. apply sim_hlist.
  cbn [tql fold_right]. repeat split; auto; now apply tq_shift.
Qed.
Lemma sim_overline body st : plain body -> sim (overline_box b1 body st) (overline_box b2 body st) plain.
Proof.
  intros HB. unfold overline_box. bnd; [apply (s_under SI)|]. bnd; [apply sim_hrule|]. bnd; [apply sim_hlist; cbn; auto|].
  bnd; [apply sim_vlist; cbn [tql fold_right]; repeat split; auto|].
  bnd; [now apply sim_vpacked|]. apply sim_hlist. cbn. auto.
Qed.

(** The visitor; the math flag does not change. *)
Definition vok (v v' : visitor) : Prop := plains (v_nodes v') /\ v_math v' = v_math v.
Definition vsim (f1 : visitor -> @M S1 visitor) (f2 : visitor -> @M S2 visitor) (v : visitor) : Prop :=
  plains (v_nodes v) -> sim (f1 v) (f2 v) (vok v).
Lemma sim_post {X} (m1 : @M S1 X) m2 (P P' : X -> Prop) : (forall x, P x -> P' x) -> sim m1 m2 P -> sim m1 m2 P'.
Proof.
  intros H K s s' HR. specialize (K s s' HR). unfold alike in *. destruct (m1 s) as [[]|], (m2 s') as [[]|]; auto.
  destruct K as (? & ? & ?). auto.
Qed.
Lemma vsim_mfold {X} (f1 : X -> visitor -> @M S1 visitor) f2 m l :
  (forall x v, In x l -> v_math v = m -> vsim (f1 x) (f2 x) v) -> forall v, v_math v = m -> vsim (mfold f1 l) (mfold f2 l) v.
Proof.
  intros H. induction l as [|x l IH]; intros v EM HV; cbn [mfold]; [ret; split; auto|].
  bnd; [apply H; [now left|exact EM|exact HV]|]. destruct H0 as [HV' EM'].
  eapply sim_post; [|apply (IH (fun y w I => H y w (or_intror I)) x0 (eq_trans EM' EM) HV')].
  intros v' [P1 P2]. split; [exact P1|congruence].
Qed.
Lemma vsim_push (k1 : @M S1 tnode) k2 v : sim k1 k2 plain -> vsim (fun v => mbind k1 (fun t => mret (push t v))) (fun v => mbind k2 (fun t => mret (push t v))) v.
Proof.
  intros H HV. bnd; [exact H|]. ret. split; [|reflexivity]. apply plains_app. split; [exact HV|]. cbn. auto.
Qed.
Lemma vsim_lift {X} (r : lres X) (k1 : X -> visitor -> @M S1 visitor) k2 v : (forall x, vsim (k1 x) (k2 x) v) ->
  vsim (fun v => mbind (mlift r) (fun x => k1 x v)) (fun v => mbind (mlift r) (fun x => k2 x v)) v.
Proof. intros H HV. bnd; [apply sim_lift|]. apply H, HV. Qed.
Lemma sim_list w l st m : (forall x v, In x l -> v_math v = m -> vsim (go range b1 parse_float expr w x) (go range b2 parse_float expr w x) v) ->
  sim (handle_list b1 (go range b1 parse_float expr w) l st m) (handle_list b2 (go range b2 parse_float expr w) l st m) plain.
Proof.
  intros H. unfold handle_list. apply (sim_bind _ _ (vok (mk_visitor [] st m))); [|intros v Hv; apply sim_hlist, Hv]. exact (vsim_mfold _ _ m l H (mk_visitor [] st m) eq_refl Logic.I).
Qed.

Definition vgs (n : node) : Prop := forall w v, (G (v_math v) \/ is_math n = true) -> vsim (go range b1 parse_float expr w n) (go range b2 parse_float expr w n) v.
Lemma vgs_both n : vgs n /\ Forall vgs (list_children n).
Proof.
  assert (FC : forall l, Forall (fun n => vgs n /\ Forall vgs (list_children n)) l -> Forall vgs l).
  { intros l H. eapply Forall_impl; [|exact H]. cbn. tauto. }
  assert (BAD : forall n0 e, (forall w v, go range b1 parse_float expr w n0 v = mpanic e) -> (forall w v, go range b2 parse_float expr w n0 v = mpanic e) -> vgs n0).
  { intros n0 e H1 H2 w v _ HV. rewrite H1, H2. apply sim_panic. }
  assert (RET : forall v : visitor, vsim (fun v => mret v) (fun v => mret v) v).
  { intros v HV. ret. split; auto. }
  assert (PAN : forall e (v : visitor), vsim (fun _ => mpanic e) (fun _ => mpanic e) v).
  { intros e v HV. apply sim_panic. }
  induction n using node_ind'; cbn [list_children]; split; auto; try (apply Forall_nil);
    try (eapply BAD; intros [] v; reflexivity).
  - intros [] v HG; [exact (PAN _ v)|exact (RET v)].
  - intros w v HG. destruct HG as [HG|HG]; [|discriminate HG]. destruct w.
    + apply (vsim_mfold go1 go2 (v_math v)); [|reflexivity]. intros x v' I' EM. apply FC in H. rewrite Forall_forall in H.
      apply H; [exact I'|]. rewrite EM. auto.
    + exact (RET v).
  - destruct nm as [[p name]|]; [|eapply BAD; intros w v; reflexivity].
    intros w v HG. destruct HG as [HG|HG]; [|discriminate HG].
    cbn [Mtex.go].
    apply (vsim_lift (handler range name)
      (fun h v => match h with None => mpanic "unknown macro" | Some h => mbind (handle_macro range b1 parse_float expr go1 h p name l (v_state v) (v_math v)) (fun t => mret (push t v)) end)
      (fun h v => match h with None => mpanic "unknown macro" | Some h => mbind (handle_macro range b2 parse_float expr go2 h p name l (v_state v) (v_math v)) (fun t => mret (push t v)) end)).
    intros [h|]; [|apply PAN].
    apply (vsim_push (handle_macro range b1 parse_float expr go1 h p name l (v_state v) (v_math v))
                     (handle_macro range b2 parse_float expr go2 h p name l (v_state v) (v_math v)) v).
    set (st := v_state v) in *. set (m := v_math v) in *.
    assert (L : forall z, In z l -> sim (handle_list b1 go1 (list_children z) st m) (handle_list b2 go2 (list_children z) st m) plain).
    { intros z I'. apply sim_list. intros x v' Ix EM. rewrite Forall_forall in H.
      destruct (H z I') as [_ GG]. rewrite Forall_forall in GG. apply GG; [exact Ix|]. left. rewrite EM. exact HG. }
    assert (FR2 : forall ld rd rule sty, sim (handle_frac_args b1 go1 ld rd rule sty l st m) (handle_frac_args b2 go2 ld rd rule sty l st m) plain).
    { intros ld rd rule sty. unfold handle_frac_args.
      destruct l as [|[| | |a l1 b| | | | | | | |] [|[| | |a2 l2 bb| | | | | | | |] l]]; try apply sim_panic.
      bnd; [exact (L _ (or_introl eq_refl))|]. bnd; [exact (L _ (or_intror (or_introl eq_refl)))|]. now apply sim_genfrac. }
    destruct h; cbn [Mtex.handle_macro].
    + apply sim_hspace.
    + now apply sim_symbol.
    + apply sim_custom.
    + now apply sim_function.
    + unfold handle_frac. bnd; [apply (s_under SI)|apply FR2].
    + unfold handle_frac. bnd; [apply (s_under SI)|apply FR2].
    + unfold handle_frac. bnd; [apply (s_under SI)|apply FR2].
    + apply FR2.
    + unfold handle_sqrt.
      destruct l as [|x1 [|x2 [|x3 l]]]; try apply sim_panic.
      * destruct x1; try apply sim_panic. bnd; [exact (L _ (or_introl eq_refl))|]. now apply sim_sqrt.
      * destruct x1; try apply sim_panic. destruct x2; try (bnd; [exact (L _ (or_introl eq_refl))|]; apply sim_panic).
        bnd; [exact (L _ (or_introl eq_refl))|]. bnd; [exact (L _ (or_intror (or_introl eq_refl)))|]. now apply sim_sqrt.
      * destruct x1, x2; apply sim_panic.
    + unfold handle_overline. destruct l as [|x1 l]; try apply sim_panic. destruct x1; try apply sim_panic.
      bnd; [exact (L _ (or_introl eq_refl))|]. now apply sim_overline.
  - intros w v _ HV. cbn [Mtex.go]. bnd.
    + refine (vsim_mfold (go range b1 parse_float expr false) (go range b2 parse_float expr false) true l _ (mk_visitor (v_nodes v) (set_type "it" (v_state v)) true) eq_refl HV). intros x v' I' EM. apply FC in H. rewrite Forall_forall in H.
      apply H; [exact I'|]. left. rewrite EM. apply (s_true SI).
    + ret. split; [apply H0|reflexivity].
  - intros w v HG HV. destruct HG as [HG|HG]; [|discriminate HG]. cbn [Mtex.go].
    bnd; [now apply sim_new_chars|]. bnd; [now apply sim_hlist|]. ret. split; [|reflexivity]. apply plains_app. split; [exact HV|]. cbn. auto.
  - intros w v HG. destruct HG as [HG|HG]; [|discriminate HG].
    apply (vsim_mfold (fun x v => mbind (handle_symbol range b1 expr x 0 (v_state v) (v_math v)) (fun t => mret (push t v)))
      (fun x v => mbind (handle_symbol range b2 expr x 0 (v_state v) (v_math v)) (fun t => mret (push t v))) (v_math v)); [|reflexivity].
    intros x v' _ EM. apply (vsim_push (handle_symbol range b1 expr x 0 (v_state v') (v_math v')) (handle_symbol range b2 expr x 0 (v_state v') (v_math v')) v').
    apply sim_symbol. rewrite EM. exact HG.
  - intros w v HG. destruct HG as [HG|HG]; [|discriminate HG]. intros HV. cbn [Mtex.go]. destruct (v_math v) eqn:EM.
    + eapply sim_bind; [apply sim_lift|intros [h|] _; [|apply sim_panic]].
      apply (sim_bind _ _ plain).
      * destruct h; cbn [handle_sym]; try apply sim_panic; [apply sim_hspace|apply sim_symbol; exact HG].
      * intros t Ht. ret. split; [|reflexivity]. apply plains_app. split; [exact HV|]. cbn. auto.
    + bnd; [now apply sim_char|]. ret. split; [|reflexivity]. apply plains_app. split; [exact HV|]. cbn. auto.
Qed.

(** The whole expression. *)
Theorem typeset_sim l size dpi :
  (G false \/ Forall (fun n => is_math n = true) l) ->
  sim (typeset range b1 parse_float expr l size dpi) (typeset range b2 parse_float expr l size dpi) plain.
Proof.
  intros HG. unfold typeset. apply (sim_bind _ _ (vok (mk_visitor [] (mk_state (mk_font "default" "rm" size) dpi) false))); [|intros v Hv; apply sim_hlist, Hv]. cbn [Mtex.go].
  refine (vsim_mfold go1 go2 false l _ (mk_visitor [] _ false) eq_refl Logic.I). intros x v I' EM. apply vgs_both. rewrite EM.
  destruct HG as [HG|HG]; [now left|right]. rewrite Forall_forall in HG. auto.
Qed.
End Sim.
