(** Two backends that answer alike for fonts of one size, at one resolution, typeset
    alike expressions without \binom and \sqrt: only that size is asked for.  The
    structure follows MtexSim.v. *)
From Coq Require Import ZArith String Ascii List Bool Lia.
From Verif Require Import Utf8 Token Ast Parser Symbols TreeSpec Arith Box Ship ShipFacts2 Mtex MtexSpec MtexFacts MtexFacts2 MtexFacts4 MtexHoare PropSymbols ReadSpec ReadFacts Float64Facts ApxSpec.
Import ListNotations.
Local Open Scope string_scope.
Local Open Scope list_scope.
Local Open Scope Z_scope.

Section FontSim.
Context {A : arith} {S1 S2 : Type}.
Variable range : Symbols.gset -> list string.
Variable b1 : @backend A S1.
Variable b2 : @backend A S2.
Variable parse_float : string -> option (Arith.F A).
Variable expr : string.
Notation tnode := (@Box.tnode A).
Notation state := (@Box.state A).
Notation visitor := (@visitor A).
Notation go1 := (go range b1 parse_float expr true).
Notation go2 := (go range b2 parse_float expr true).
(** [R]: how the states are related; [G]: the math flags in use. *)
Variable R : S1 -> S2 -> Prop.
Variable G : bool -> Prop.
Variables fsize fdpi : Arith.F A.
Hypothesis FR : fair range.

(** No accents (which mtex does not make). *)
Notation plain := (tq (fun (_ : unit) (_ : @Box.tchar A) => True) tt).
Notation plains := (tql (fun (_ : unit) (_ : @Box.tchar A) => True) tt).

(** A node that can stand in a list to be kerned: glyphs are of the one size. *)
Definition top (t : tnode) : Prop :=
  match t with TChar c => f_size (c_font c) = fsize /\ c_dpi c = fdpi | TAccent _ => False | _ => True end.
Definition fine (t : tnode) : Prop := plain t /\ top t.
Definition fines (l : list tnode) : Prop := Forall fine l.
(** A list, or something else without glyphs of its own. *)
Definition lst (t : tnode) : Prop := plain t /\ match t with TChar _ | TAccent _ => False | _ => True end.
Lemma lst_fine t : lst t -> fine t.
Proof. intros [H K]. split; [exact H|]. destruct t; auto; contradiction. Qed.
Lemma fines_plains l : fines l -> plains l.
Proof. induction 1 as [|x l [H _] _ IH]; cbn; auto. Qed.
Definition std (st : state) : Prop := f_size (st_font st) = fsize /\ st_dpi st = fdpi.

Lemma plains_in l x : plains l -> In x l -> plain x.
Proof. induction l as [|y l IH]; cbn; [contradiction|]. intros [H1 H2] [->|H]; auto. Qed.
Lemma plains_app l l' : plains l /\ plains l' -> plains (l ++ l').
Proof. induction l as [|y l IH]; cbn; [tauto|]. intros ((H1 & H2) & H3). split; [exact H1|]. apply IH. auto. Qed.

(** The same value, with [P], and related states; or the same panic. *)
Definition alike {X} (P : X -> Prop) (a : lres (X * S1)) (b : lres (X * S2)) : Prop :=
  match a, b with
  | LOk (x, s), LOk (y, s') => x = y /\ P x /\ R s s'
  | LPanic e, LPanic e' => e = e'
  | _, _ => False
  end.
Definition sim {X} (m1 : @M S1 X) (m2 : @M S2 X) (P : X -> Prop) : Prop := forall s s', R s s' -> alike P (m1 s) (m2 s').
Definition any {X} : X -> Prop := fun _ => True.

Record sims : Prop := mk_sims {
  s_true : G true;
  s_metrics : forall sym ft m, G m -> f_size ft = fsize -> sim (be_metrics b1 sym ft fdpi m) (be_metrics b2 sym ft fdpi m) any;
  s_kern : forall f1 c1 f2 c2, f_size f1 = fsize -> f_size f2 = fsize -> sim (be_kern b1 f1 c1 f2 c2 fdpi) (be_kern b2 f1 c1 f2 c2 fdpi) any;
  s_under : forall ft, f_size ft = fsize -> sim (be_underline b1 ft fdpi) (be_underline b2 ft fdpi) any }.
Hypothesis SI : sims.

Lemma sim_bind {X Y} (m1 : @M S1 X) m2 P (k1 : X -> @M S1 Y) k2 P' :
  sim m1 m2 P -> (forall x, P x -> sim (k1 x) (k2 x) P') -> sim (mbind m1 k1) (mbind m2 k2) P'.
Proof.
  intros H K s s' HR. specialize (H s s' HR). unfold mbind, alike in *.
  destruct (m1 s) as [[x t]|e], (m2 s') as [[y t']|e']; try contradiction; [|exact H].
  destruct H as (<- & HP & H). exact (K x HP t t' H).
Qed.
Lemma sim_ret {X} (x : X) (P : X -> Prop) : P x -> sim (mret x) (mret x) P.
Proof. intros HP s s' HR. split; [reflexivity|split; [exact HP|exact HR]]. Qed.
Lemma sim_panic {X} e P : sim (X := X) (mpanic e) (mpanic e) P.
Proof. intros s s' HR. reflexivity. Qed.
Lemma sim_lift {X} (r : lres X) : sim (mlift r) (mlift r) any.
Proof. destruct r; [apply sim_ret; exact I|apply sim_panic]. Qed.
Ltac bnd := eapply sim_bind; [|intros ? ?].
Ltac ret := apply sim_ret.
Ltac triv := exact Logic.I.
Ltac fl := repeat (apply Forall_nil || apply Forall_cons).

Lemma sim_post {X} (m1 : @M S1 X) m2 (P P' : X -> Prop) : (forall x, P x -> P' x) -> sim m1 m2 P -> sim m1 m2 P'.
Proof.
  intros H K s s' HR. specialize (K s s' HR). unfold alike in *. destruct (m1 s) as [[]|], (m2 s') as [[]|]; auto.
  destruct K as (? & ? & ?). auto.
Qed.
Lemma sim_char c st m : G m -> std st -> sim (new_char b1 c st m) (new_char b2 c st m) (fun ch => fine (TChar ch)).
Proof.
  intros HG [H1 H2]. unfold new_char. rewrite H2. bnd; [apply (s_metrics SI); auto|]. ret. split; [triv|]. split; [exact H1|reflexivity].
Qed.
Lemma sim_kerning t n : fine t -> match n with Some x => fine x | None => True end -> sim (kerning b1 t n) (kerning b2 t n) any.
Proof.
  intros [_ T] N. unfold kerning. destruct t as [| |c|c| | |]; try (ret; triv); [|contradiction].
  destruct T as [T1 T2]. apply (sim_bind _ _ any); [|intros; ret; triv]. destruct n as [[| |c'|c'| | |]|]; try (ret; triv); [|destruct N as [_ []]].
  destruct N as [_ [N1 _]]. rewrite T2. now apply (s_kern SI).
Qed.
Lemma sim_kern_list l : fines l -> sim (kern_list b1 l) (kern_list b2 l) fines.
Proof.
  induction l as [|x l IH]; intros H; cbn [kern_list]; [ret; constructor|]. inversion H as [|? ? Hx Hl]; subst.
  bnd; [apply sim_kerning; [exact Hx|inversion Hl; cbn; auto]|]. bnd; [apply IH, Hl|ret].
  destruct (negb _); constructor; auto. constructor; auto. split; triv.
Qed.
Lemma sim_hlist l k : fines l -> sim (hlist_of b1 l k) (hlist_of b2 l k) lst.
Proof.
  intros H. unfold hlist_of. apply (sim_bind _ _ fines); [destruct k; [now apply sim_kern_list|now ret]|]. intros r Hr. ret.
  split; [|triv]. apply fines_plains, Hr.
Qed.
Lemma lst_vpack h ad lim t t' : lst t -> vpack h ad lim t = LOk t' -> lst t'.
Proof.
  intros [H K] E. split; [eapply tq_vpack; [|exact E]; exact H|]. revert K E.
  destruct t; cbn [vpack]; try (intros K E; injection E as <-; exact K).
  destruct (vfold l dims0); intros K E; [|discriminate E]. injection E as <-. triv.
Qed.
Lemma lst_hpack w ad t : lst t -> lst (hpack w ad t).
Proof. intros [H K]. split; [now apply tq_hpack|]. destruct t; auto. Qed.
Lemma lst_shift d t : lst t -> lst (set_shift d t).
Proof. intros [H K]. split; [now apply tq_shift|]. destruct t; auto. Qed.
Lemma sim_vlist (l : list tnode) : plains l -> sim (vlist_of l) (vlist_of l) lst.
Proof.
  intros H. unfold vlist_of. destruct (vpack _ _ _ _) eqn:E; [|apply sim_panic]. ret. eapply lst_vpack; [|exact E]. split; [exact H|triv].
Qed.
Lemma one_fine t : lst t -> fines [t].
Proof. intros H. constructor; [now apply lst_fine|constructor]. Qed.
Lemma sim_hcentered t : lst t -> sim (hcentered b1 [t]) (hcentered b2 [t]) lst.
Proof. intros H. apply sim_hlist. fl; try (apply lst_fine, H); split; triv. Qed.
Lemma sim_hrule st th : std st -> sim (hrule b1 st th) (hrule b2 st th) lst.
Proof.
  intros [H1 H2]. unfold hrule. rewrite H2. apply (sim_bind _ _ any); [|intros; ret; split; triv]. destruct (fltb A th f0); [now apply (s_under SI)|ret; triv].
Qed.
Lemma sim_space st p : std st -> sim (make_space b1 st p) (make_space b2 st p) lst.
Proof. intros [H1 H2]. unfold make_space. rewrite H2. bnd; [apply (s_metrics SI); [apply (s_true SI)|exact H1]|ret; split; triv]. Qed.
Lemma sim_mmap {X} (f1 : X -> @M S1 tnode) f2 l : (forall x, In x l -> sim (f1 x) (f2 x) plain) -> sim (mmap f1 l) (mmap f2 l) plains.
Proof.
  intros H. induction l as [|x l IH]; cbn [mmap]; [ret; triv|]. bnd; [apply H; now left|].
  bnd; [apply IH; intros; apply H; now right|ret; cbn; auto].
Qed.
Lemma sim_shrink' t : plain t -> sim (shrink b1 t) (shrink b2 t) plain.
Proof.
  induction t using tnode_ind'; intros HP; cbn [shrink]; try (ret; triv); [destruct HP|].
  apply (sim_bind _ _ plains).
  - apply sim_mmap. intros x Ix. rewrite Forall_forall in H. apply H; [exact Ix|]. change (plains l) in HP. exact (plains_in _ _ HP Ix).
  - intros r Hr. ret. destruct (_ <? _); exact Hr.
Qed.
Lemma sim_shrink t : lst t -> sim (shrink b1 t) (shrink b2 t) lst.
Proof.
  intros [HP K]. destruct t as [| | | | | |k b sh gs l]; try contradiction; try (cbn [shrink]; ret; split; triv).
  cbn [shrink]. apply (sim_bind _ _ plains).
  - apply sim_mmap. intros x Ix. apply sim_shrink'. change (plains l) in HP. exact (plains_in _ _ HP Ix).
  - intros r Hr. ret. destruct (_ <? _); (split; [exact Hr|triv]).
Qed.
Lemma sim_new_chars txt st m : G m -> std st -> sim (new_chars b1 txt st m) (new_chars b2 txt st m) fines.
Proof.
  intros HG HS. unfold new_chars. match goal with |- sim (mmap _ ?y) _ _ => induction y as [|x l IH] end; cbn [mmap]; [ret; constructor|].
  eapply (sim_bind _ _ fine); [bnd; [apply sim_char; assumption|ret; assumption]|intros ? ?].
  bnd; [exact IH|ret; constructor; assumption].
Qed.
Lemma sim_symbol sym pos st m : G m -> std st -> sim (handle_symbol range b1 expr sym pos st m) (handle_symbol range b2 expr sym pos st m) fine.
Proof.
  intros HG HS. unfold handle_symbol. bnd; [now apply sim_char|]. destruct (is_spaced range sym).
  - bnd; [apply sim_lift|]. destruct (_ && _); [ret; assumption|]. bnd; [now apply sim_space|]. bnd; [now apply sim_space|].
    eapply sim_post; [|apply sim_hlist]; [apply lst_fine|]. fl; auto; apply lst_fine; assumption.
  - destruct (set_has _ sym); [|ret; assumption]. destruct (String.eqb sym "."); [|apply sim_panic]. bnd; [apply sim_lift|]. destruct (_ && _); [ret; assumption|].
    bnd; [now apply sim_space|]. eapply sim_post; [|apply sim_hlist]; [apply lst_fine|]. fl; auto; apply lst_fine; assumption.
Qed.
Lemma sim_hspace name st : std st -> sim (handle_space b1 name st) (handle_space b2 name st) lst.
Proof. intros HS. unfold handle_space. destruct (assoc name space_width) as [[]|]; [now apply sim_space|apply sim_panic]. Qed.
Lemma sim_custom args st : std st -> sim (handle_custom_space b1 parse_float args st) (handle_custom_space b2 parse_float args st) lst.
Proof.
  intros HS. unfold handle_custom_space. destruct args as [|[| | |a [|[| | | | | | | |q v| | |] l] b| | | | | | | |] args]; try apply sim_panic.
  destruct (parse_float v); [now apply sim_space|apply sim_panic].
Qed.
Lemma sim_function name st m : G m -> std st -> sim (handle_function b1 name st m) (handle_function b2 name st m) lst.
Proof. intros HG HS. unfold handle_function. bnd; [apply sim_new_chars; [exact HG|exact HS]|now apply sim_hlist]. Qed.
Lemma sim_genfrac rule sty num den st : std st -> lst num -> lst den ->
  sim (genfrac b1 "" "" rule sty num den st) (genfrac b2 "" "" rule sty num den st) lst.
Proof.
  intros HS HN HD. unfold genfrac. pose proof HS as [H1 H2]. rewrite !H2. bnd; [now apply (s_under SI)|].
  apply (sim_bind _ _ lst); [destruct sty; [now ret|now apply sim_shrink]|intros ? ?].
  apply (sim_bind _ _ lst); [destruct sty; [now ret|now apply sim_shrink]|intros ? ?].
  bnd; [now apply sim_hcentered|]. bnd; [now apply sim_hcentered|]. bnd; [now apply sim_hrule|].
  bnd; [apply sim_vlist; cbn [tql fold_right]; repeat split; try triv; try (apply tq_hpack); match goal with H : lst ?x |- plain ?x => apply H end|].
  bnd; [apply (s_metrics SI); [apply (s_true SI)|exact H1]|].
  bnd; [apply sim_hlist; fl; apply lst_fine; (now apply lst_shift) || (split; triv)|].
  cbn [negb String.eqb orb]. now ret.
Qed.
Lemma sim_vpacked h ad lim t : lst t -> sim (mlift (vpack h ad lim t)) (mlift (vpack h ad lim t)) lst.
Proof.
  intros H. destruct (vpack h ad lim t) as [t'|] eqn:E; cbn [mlift]; [|apply sim_panic]. ret. eapply lst_vpack; [|exact E]. exact H.
Qed.
Lemma sim_overline body st : std st -> lst body -> sim (overline_box b1 body st) (overline_box b2 body st) lst.
Proof.
  intros HS HB. unfold overline_box. pose proof HS as [H1 H2]. rewrite !H2. bnd; [now apply (s_under SI)|].
  bnd; [now apply sim_hrule|]. bnd; [apply sim_hlist, one_fine, HB|].
  bnd; [apply sim_vlist; cbn [tql fold_right]; repeat split; try triv; match goal with H : lst ?x |- plain ?x => apply H end|].
  bnd; [now apply sim_vpacked|]. apply sim_hlist. now apply one_fine.
Qed.

(** The visitor; the math flag does not change. *)
Definition vok (v v' : visitor) : Prop := fines (v_nodes v') /\ v_math v' = v_math v /\ std (v_state v').
Definition vsim (f1 : visitor -> @M S1 visitor) (f2 : visitor -> @M S2 visitor) (v : visitor) : Prop :=
  fines (v_nodes v) -> std (v_state v) -> sim (f1 v) (f2 v) (vok v).
Lemma vsim_mfold {X} (f1 : X -> visitor -> @M S1 visitor) f2 m l :
  (forall x v, In x l -> v_math v = m -> vsim (f1 x) (f2 x) v) -> forall v, v_math v = m -> vsim (mfold f1 l) (mfold f2 l) v.
Proof.
  intros H. induction l as [|x l IH]; intros v EM HV HS; cbn [mfold]; [ret; split; auto|].
  bnd; [apply H; [now left|exact EM|exact HV|exact HS]|]. destruct H0 as (HV' & EM' & HS').
  eapply sim_post; [|apply (IH (fun y w I => H y w (or_intror I)) x0 (eq_trans EM' EM) HV' HS')].
  intros v' (P1 & P2 & P3). split; [exact P1|]. split; [congruence|exact P3].
Qed.
Lemma fines_push l t : fines l -> fine t -> fines (l ++ [t]).
Proof. intros H1 H2. apply Forall_app. split; [exact H1|]. constructor; [exact H2|constructor]. Qed.
Lemma vsim_push (k1 : @M S1 tnode) k2 v : sim k1 k2 fine -> vsim (fun v => mbind k1 (fun t => mret (push t v))) (fun v => mbind k2 (fun t => mret (push t v))) v.
Proof.
  intros H HV HS. bnd; [exact H|]. ret. split; [|split; [reflexivity|exact HS]]. now apply fines_push.
Qed.
Lemma vsim_lift {X} (r : lres X) (k1 : X -> visitor -> @M S1 visitor) k2 v : (forall x, r = LOk x -> vsim (k1 x) (k2 x) v) ->
  vsim (fun v => mbind (mlift r) (fun x => k1 x v)) (fun v => mbind (mlift r) (fun x => k2 x v)) v.
Proof. intros H HV HS. destruct r as [x|e]; cbn [mlift]; [|apply sim_panic]. exact (H x eq_refl HV HS). Qed.
Lemma sim_list w l st m : std st -> (forall x v, In x l -> v_math v = m -> vsim (go range b1 parse_float expr w x) (go range b2 parse_float expr w x) v) ->
  sim (handle_list b1 (go range b1 parse_float expr w) l st m) (handle_list b2 (go range b2 parse_float expr w) l st m) lst.
Proof.
  intros HS H. unfold handle_list. apply (sim_bind _ _ (vok (mk_visitor [] st m))); [|intros v Hv; apply sim_hlist, Hv].
  exact (vsim_mfold _ _ m l H (mk_visitor [] st m) eq_refl (Forall_nil _) HS).
Qed.

Definition vgs (n : node) : Prop := unresized n -> forall w v, (G (v_math v) \/ is_math n = true) -> vsim (go range b1 parse_float expr w n) (go range b2 parse_float expr w n) v.
Lemma unres_all l : fold_right (fun x p => unresized x /\ p) True l -> Forall unresized l.
Proof. induction l as [|x l IH]; cbn; [constructor|]. intros [H1 H2]. constructor; auto. Qed.
Lemma vgs_both n : vgs n /\ Forall vgs (list_children n).
Proof.
  assert (FC : forall l, Forall (fun n => vgs n /\ Forall vgs (list_children n)) l -> Forall vgs l).
  { intros l H. eapply Forall_impl; [|exact H]. cbn. tauto. }
  assert (BAD : forall n0 e, (forall w v, go range b1 parse_float expr w n0 v = mpanic e) -> (forall w v, go range b2 parse_float expr w n0 v = mpanic e) -> vgs n0).
  { intros n0 e H1 H2 _ w v _ HV HS. rewrite H1, H2. apply sim_panic. }
  assert (RET : forall v : visitor, vsim (fun v => mret v) (fun v => mret v) v).
  { intros v HV HS. ret. split; auto. }
  assert (PAN : forall e (v : visitor), vsim (fun _ => mpanic e) (fun _ => mpanic e) v).
  { intros e v HV HS. apply sim_panic. }
  induction n using node_ind'; cbn [list_children]; split; auto; try (apply Forall_nil);
    try (eapply BAD; intros [] v; reflexivity).
  - intros _ [] v HG; [exact (PAN _ v)|exact (RET v)].
  - intros U w v HG. destruct HG as [HG|HG]; [|discriminate HG]. apply unres_all in U. rewrite Forall_forall in U. destruct w.
    + apply (vsim_mfold go1 go2 (v_math v)); [|reflexivity]. intros x v' I' EM. apply FC in H. rewrite Forall_forall in H.
      apply H; [exact I'|auto|]. rewrite EM. auto.
    + exact (RET v).
  - destruct nm as [[p name]|]; [|eapply BAD; intros w v; reflexivity].
    intros U w v HG. destruct HG as [HG|HG]; [|discriminate HG]. cbn [unresized] in U. destruct U as [[NB NS] U]. apply unres_all in U. rewrite Forall_forall in U.
    cbn [Mtex.go].
    apply (vsim_lift (handler range name)
      (fun h v => match h with None => mpanic "unknown macro" | Some h => mbind (handle_macro range b1 parse_float expr go1 h p name l (v_state v) (v_math v)) (fun t => mret (push t v)) end)
      (fun h v => match h with None => mpanic "unknown macro" | Some h => mbind (handle_macro range b2 parse_float expr go2 h p name l (v_state v) (v_math v)) (fun t => mret (push t v)) end)).
    intros [h|] EH; [|apply PAN]. apply (handler_cases _ FR) in EH. intros HV HS. revert HV HS.
    match goal with |- fines _ -> std ?st -> _ => assert (HSS : std st -> vsim (fun v => mbind (handle_macro range b1 parse_float expr go1 h p name l (v_state v) (v_math v)) (fun t => mret (push t v)))
       (fun v => mbind (handle_macro range b2 parse_float expr go2 h p name l (v_state v) (v_math v)) (fun t => mret (push t v))) v) end; [|intros HV HS; exact (HSS HS HV HS)].
    intros HS.
    apply (vsim_push (handle_macro range b1 parse_float expr go1 h p name l (v_state v) (v_math v))
                     (handle_macro range b2 parse_float expr go2 h p name l (v_state v) (v_math v)) v).
    set (st := v_state v) in *. set (m := v_math v) in *.
    assert (L : forall z, In z l -> (forall x, In x (list_children z) -> unresized x) -> sim (handle_list b1 go1 (list_children z) st m) (handle_list b2 go2 (list_children z) st m) lst).
    { intros z I' UZ. apply sim_list; [exact HS|]. intros x v' Ix EM. rewrite Forall_forall in H.
      destruct (H z I') as [_ GG]. rewrite Forall_forall in GG. apply GG; [exact Ix|apply UZ, Ix|]. left. rewrite EM. exact HG. }
    assert (LA : forall a l1 b, In (NArg a l1 b) l -> sim (handle_list b1 go1 l1 st m) (handle_list b2 go2 l1 st m) lst).
    { intros a l1 b I'. apply (L (NArg a l1 b) I'). specialize (U _ I'). cbn [unresized] in U. apply unres_all in U. rewrite Forall_forall in U. exact U. }
    assert (FR2 : forall sty, sim (handle_frac b1 go1 sty l st m) (handle_frac b2 go2 sty l st m) fine).
    { intros sty. unfold handle_frac. pose proof HS as [H1 H2]. rewrite H2. bnd; [now apply (s_under SI)|]. unfold handle_frac_args.
      destruct l as [|[| | |a l1 b| | | | | | | |] [|[| | |a2 l2 bb| | | | | | | |] l]]; try apply sim_panic.
      bnd; [exact (LA _ _ _ (or_introl eq_refl))|]. bnd; [exact (LA _ _ _ (or_intror (or_introl eq_refl)))|].
      eapply sim_post; [apply lst_fine|]. now apply sim_genfrac. }
    destruct h; cbn [Mtex.handle_macro].
    + eapply sim_post; [apply lst_fine|]. now apply sim_hspace.
    + now apply sim_symbol.
    + eapply sim_post; [apply lst_fine|]. now apply sim_custom.
    + eapply sim_post; [apply lst_fine|]. now apply sim_function.
    + apply FR2.
    + apply FR2.
    + apply FR2.
    + contradiction.
    + contradiction.
    + eapply sim_post; [apply lst_fine|]. unfold handle_overline. destruct l as [|x1 l]; try apply sim_panic. destruct x1; try apply sim_panic.
      bnd; [exact (LA _ _ _ (or_introl eq_refl))|]. now apply sim_overline.
  - intros U w v _ HV HS. cbn [unresized] in U. apply unres_all in U. rewrite Forall_forall in U. cbn [Mtex.go]. bnd.
    + refine (vsim_mfold (go range b1 parse_float expr false) (go range b2 parse_float expr false) true l _ (mk_visitor (v_nodes v) (set_type "it" (v_state v)) true) eq_refl HV HS). intros x v' I' EM. apply FC in H. rewrite Forall_forall in H.
      apply H; [exact I'|auto|]. left. rewrite EM. apply (s_true SI).
    + ret. split; [apply H0|split; [reflexivity|apply H0]].
  - intros _ w v HG HV HS. destruct HG as [HG|HG]; [|discriminate HG]. cbn [Mtex.go].
    bnd; [apply sim_new_chars; [exact HG|exact HS]|]. bnd; [now apply sim_hlist|]. ret. split; [|split; [reflexivity|exact HS]]. apply fines_push; [exact HV|now apply lst_fine].
  - intros _ w v HG. destruct HG as [HG|HG]; [|discriminate HG].
    apply (vsim_mfold (fun x v => mbind (handle_symbol range b1 expr x 0 (v_state v) (v_math v)) (fun t => mret (push t v)))
      (fun x v => mbind (handle_symbol range b2 expr x 0 (v_state v) (v_math v)) (fun t => mret (push t v))) (v_math v)); [|reflexivity].
    intros x v' _ EM HV HS. refine (vsim_push (handle_symbol range b1 expr x 0 (v_state v') (v_math v')) (handle_symbol range b2 expr x 0 (v_state v') (v_math v')) v' _ HV HS).
    apply sim_symbol; [rewrite EM; exact HG|exact HS].
  - intros _ w v HG. destruct HG as [HG|HG]; [|discriminate HG]. intros HV HS. cbn [Mtex.go]. destruct (v_math v) eqn:EM.
    + eapply sim_bind; [apply sim_lift|intros [h|] _; [|apply sim_panic]].
      apply (sim_bind _ _ fine).
      * destruct h; cbn [handle_sym]; try apply sim_panic; [eapply sim_post; [apply lst_fine|]; now apply sim_hspace|apply sim_symbol; [exact HG|exact HS]].
      * intros t Ht. ret. split; [|split; [reflexivity|exact HS]]. now apply fines_push.
    + bnd; [now apply sim_char|]. ret. split; [|split; [reflexivity|exact HS]]. now apply fines_push.
Qed.

(** The whole expression. *)
Theorem typeset_font_sim l : Forall unresized l ->
  (G false \/ Forall (fun n => is_math n = true) l) ->
  sim (typeset range b1 parse_float expr l fsize fdpi) (typeset range b2 parse_float expr l fsize fdpi) lst.
Proof.
  intros U HG. unfold typeset. apply (sim_bind _ _ (vok (mk_visitor [] (mk_state (mk_font "default" "rm" fsize) fdpi) false))); [|intros v Hv; apply sim_hlist, Hv]. cbn [Mtex.go].
  refine (vsim_mfold go1 go2 false l _ (mk_visitor [] (mk_state (mk_font "default" "rm" fsize) fdpi) false) eq_refl (Forall_nil _) (conj eq_refl eq_refl)). intros x v I' EM. rewrite Forall_forall in U. apply vgs_both; [auto|]. rewrite EM.
  destruct HG as [HG|HG]; [now left|right]. rewrite Forall_forall in HG. auto.
Qed.
End FontSim.
