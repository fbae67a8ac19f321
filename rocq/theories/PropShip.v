(** C31-C38: shipping a box tree to the font backend (Ship.Call). *)
From Coq Require Import ZArith Bool List String Ascii Lia QArith Qcanon Lqa Floats.
From Verif Require Import Arith Exact OrderLaws Box Ship ShipSpec ShipFacts ShipFacts2 PackSpec PackFacts ExactFacts PropPack.
Import ListNotations.
Local Open Scope string_scope.
Local Open Scope list_scope.
Local Open Scope Z_scope.

Section Generic.
Context {A : arith}.
Notation F := (Arith.F A).
Notation tnode := (@Box.tnode A).
Notation gset := (@Box.gset A).
Notation box := (@Box.box A).
Notation event := (@Ship.event A).
Notation ship := (@Ship.ship A).

Lemma ship_ok_inv ox oy k b sh gs (l : list tnode) t' st :
  ship_call ox oy (TL k b sh gs l) = LOk (t', st) ->
  ~ stuck false (TL k b sh gs l) /\
  t' = overwritten false b (TL k b sh gs l) /\
  st = mk_ship (nest (TL k b sh gs l)) 0 f0 (hpos gs f0 l) (draws ox (fadd A oy (b_height b)) false b (TL k b sh gs l) f0 f0).
Proof.
  intros H. destruct (stuck_dec (TL k b sh gs l) false) as [S|S].
  - destruct (ship_call_stuck ox oy _ S) as (e & E). congruence.
  - rewrite ship_call_spec in H by assumption. inversion H; subst. auto.
Qed.

(** ** C31 *)

(** A nested list and its place: [place] relates a list at left edge [x] and
    baseline [v] to a list somewhere below it, with the box it is drawn with, and
    the orientation of both. *)
Inductive place : bool -> box -> tnode -> F -> F -> bool -> box -> tnode -> F -> F -> Prop :=
  | place_here vert bx t x v : place vert bx t x v vert bx t x v
  | place_h bx k b sh gs pre k1 b1 sh1 gs1 l1 post x v vert' bx' t' x' v' :
      k1 = KHList \/ k1 = KVList ->
      place (is_vlist k1) b1 (TL k1 b1 sh1 gs1 l1) (hpos gs x pre) (fadd A v sh1) vert' bx' t' x' v' ->
      place false bx (TL k b sh gs (pre ++ TL k1 b1 sh1 gs1 l1 :: post)) x v vert' bx' t' x' v'
  | place_v bx k b sh gs pre k1 b1 sh1 gs1 l1 post x v vert' bx' t' x' v' :
      k1 = KHList \/ k1 = KVList ->
      place (is_vlist k1) (box_width (b_width bx) b1) (TL k1 b1 sh1 gs1 l1)
        (fadd A x sh1) (fadd A (vpos gs (fsub A v (b_height bx)) pre) (b_height b1)) vert' bx' t' x' v' ->
      place true bx (TL k b sh gs (pre ++ TL k1 b1 sh1 gs1 l1 :: post)) x v vert' bx' t' x' v'.

Lemma mid {X} (a e1 d e2 c : list X) : exists e1' e2', a ++ (e1 ++ d ++ e2) ++ c = e1' ++ d ++ e2'.
Proof. exists (a ++ e1), (e2 ++ c). now rewrite <- !app_assoc. Qed.

(** The output of a nested list is a contiguous part of the whole output. *)
Lemma draws_place ox oy vert bx t x v vert' bx' t' x' v' :
  place vert bx t x v vert' bx' t' x' v' ->
  exists E1 E2, draws ox oy vert bx t x v = E1 ++ draws ox oy vert' bx' t' x' v' ++ E2.
Proof.
  induction 1.
  - exists [], []. now rewrite app_nil_r.
  - destruct IHplace as (E1 & E2 & IH).
    rewrite draws_unfold. rewrite each_app. cbn [app]. 
    change (each ?f pre (?y :: post)) with (f pre y ++ each f (pre ++ [y]) post).
    unfold hdraw at 2. replace (match k1 with KHList | KVList => _ | _ => _ end)
      with (draws ox oy (is_vlist k1) b1 (TL k1 b1 sh1 gs1 l1) (hpos gs x pre) (fadd A v sh1))
      by (destruct H; subst; reflexivity).
    rewrite IH. apply mid.
  - destruct IHplace as (E1 & E2 & IH).
    rewrite draws_unfold. rewrite each_app. cbn [app].
    change (each ?f pre (?y :: post)) with (f pre y ++ each f (pre ++ [y]) post).
    unfold vdraw at 2. cbn [t_height]. replace (match k1 with KHList | KVList => _ | _ => _ end)
      with (draws ox oy (is_vlist k1) (box_width (b_width bx) b1) (TL k1 b1 sh1 gs1 l1) (fadd A x sh1) (fadd A (vpos gs (fsub A v (b_height bx)) pre) (b_height b1)))
      by (destruct H; subst; reflexivity).
    rewrite IH. apply mid.
Qed.

(** Shipping emits the calls of the specification, in its order. *)
Theorem C31_ship_output : forall ox oy k b sh gs (l : list tnode) t' st,
  let t := TL k b sh gs l in
  ship_call ox oy t = LOk (t', st) ->
  s_out st = draws ox (fadd A oy (b_height b)) false b t f0 f0.
Proof. intros. apply ship_ok_inv in H as (_ & _ & ->). reflexivity. Qed.

(** One glyph call per Char and Accent, depth first. *)
Theorem C31_glyph_order : forall ox oy k b sh gs (l : list tnode) t' st,
  let t := TL k b sh gs l in
  ship_call ox oy t = LOk (t', st) -> glyphs (s_out st) = chars t.
Proof. intros. apply ship_ok_inv in H as (N & _ & ->). cbn [s_out]. now apply glyphs_draws. Qed.

(** A character of a nested horizontal list is drawn at the place of the list plus
    what precedes it, as one call. *)
Theorem C31_char_position : forall ox oy k b sh gs (l : list tnode) t' st,
  let t := TL k b sh gs l in
  ship_call ox oy t = LOk (t', st) ->
  forall k' bx' b' sh' gs' pre c post x v,
  place false b t f0 f0 false bx' (TL k' b' sh' gs' (pre ++ TChar c :: post)) x v ->
  exists E1 E2,
    s_out st = E1 ++
      [EGlyph (fadd A (hpos gs' x pre) ox) (fadd A v (fadd A oy (b_height b))) (c_font c) (c_sym c) (c_dpi c)] ++ E2.
Proof.
  intros. apply ship_ok_inv in H as (N & _ & ->). cbn [s_out].
  destruct (draws_place ox (fadd A oy (b_height b)) _ _ _ _ _ _ _ _ _ _ H0) as (E1 & E2 & E). subst t.
  rewrite E. rewrite draws_unfold, each_app. cbn [app].
  change (each ?f pre (?y :: post)) with (f pre y ++ each f (pre ++ [y]) post).
  cbn [hdraw glyph]. exact (mid E1 _ [_] _ E2).
Qed.

(** ** C32 *)
Lemma nest_overwritten (t : tnode) : forall vert bx, nest (overwritten vert bx t) = nest t.
Proof.
  induction t as [b|c|c|b|g|sz w|k b sh gs l IH] using tnode_ind'; intros vert bx; try reflexivity.
  rewrite overwritten_unfold, !nest_unfold. f_equal.
  induction IH as [|y l Hy _ IHl]; [reflexivity|]. cbn [map max_nest fold_right]. fold (max_nest l). fold (max_nest (map (over1 vert bx) l)).
  rewrite IHl. f_equal.
  destruct y as [| | | | | |[] b' sh' gs' [|z xs]]; try reflexivity.
  - cbn [over1 sub_nest]. rewrite overwritten_unfold. cbn [map]. rewrite <- (Hy false (if vert then box_width (b_width bx) b' else b')).
    rewrite overwritten_unfold. reflexivity.
  - cbn [over1 sub_nest]. rewrite overwritten_unfold. cbn [map]. rewrite <- (Hy true (if vert then box_width (b_width bx) b' else b')).
    rewrite overwritten_unfold. reflexivity.
Qed.

(** Shipping leaves the tree in a state that ships as before, from any origin. *)
Theorem C32_ship_again : forall ox oy k b sh gs (l : list tnode) t' st,
  ship_call ox oy (TL k b sh gs l) = LOk (t', st) ->
  forall ox' oy', ship_call ox' oy' t' = ship_call ox' oy' (TL k b sh gs l).
Proof.
  intros * H ox' oy'. apply ship_ok_inv in H as (N & -> & _).
  rewrite (ship_call_spec ox' oy' k b sh gs l N).
  pose proof (overwritten_unfold false b k b sh gs l) as U.
  rewrite U. rewrite ship_call_spec.
  - rewrite <- U, overwritten_idem, draws_overwritten, nest_overwritten.
    rewrite (like_hpos gs f0 l (map (over1 false b) l)) by apply over_like_all. reflexivity.
  - rewrite <- U. intros X. apply stuck_overwritten in X; auto.
Qed.

(** ** C35 *)
Theorem C35_push_depth : forall ox oy k b sh gs (l : list tnode) t' st,
  let t := TL k b sh gs l in
  ship_call ox oy t = LOk (t', st) -> s_s st = 0 /\ s_max st = nest t.
Proof. intros. apply ship_ok_inv in H as (_ & _ & ->). split; reflexivity. Qed.

(** ** C36 *)
Theorem C36_panics_iff : forall ox oy k b sh gs (l : list tnode),
  let t := TL k b sh gs l in
  ((exists e, ship_call ox oy t = LPanic e) <-> stuck false t) /\
  (~ stuck false t <-> exists t' st, ship_call ox oy t = LOk (t', st)).
Proof.
  intros. destruct (stuck_dec t false) as [S|S].
  - destruct (ship_call_stuck ox oy _ S) as (e & E). rewrite E. split; split; try tauto; eauto.
    intros (? & ? & X). discriminate.
  - pose proof (ship_call_spec ox oy k b sh gs l S) as E. fold t in E. rewrite E. split; split; try tauto; eauto.
    intros (? & X). discriminate.
Qed.

Theorem C36_built_never_panics_generic : zero_laws (A:=A) -> forall S (be : @backend A S) (t : tnode),
  built be t -> (exists k b sh gs l, t = TL k b sh gs l) ->
  forall ox oy, exists t' st, ship_call ox oy t = LOk (t', st).
Proof.
  intros ZL S be t B (k & b & sh & gs & l & ->) ox oy. apply C36_panics_iff.
  apply (fine_not_stuck ZL); [now apply (built_fine be ZL)|discriminate].
Qed.

(** ** C38 *)
Theorem C38_running_rule_h : forall ox oy k b sh gs (l : list tnode) t' st,
  ship_call ox oy (TL k b sh gs l) = LOk (t', st) ->
  forall k' bx' b' sh' gs' pre r post x v,
  place false b (TL k b sh gs l) f0 f0 false bx' (TL k' b' sh' gs' (pre ++ TRule r :: post)) x v ->
  finf A (b_height r) = true -> finf A (b_depth r) = true ->
  fltb A f0 (b_width r) = true -> fltb A f0 (b_height bx') = true ->
  let left := fadd A (hpos gs' x pre) ox in
  let bottom := fadd A (fadd A v (b_depth bx')) (fadd A oy (b_height b)) in
  exists E1 E2, s_out st = E1 ++ [ERect left bottom (fadd A left (b_width r)) (fadd A bottom (b_height bx'))] ++ E2.
Proof.
  intros * H * P Hh Hd Hw Hb left bottom. apply ship_ok_inv in H as (N & _ & ->). cbn [s_out].
  destruct (draws_place ox (fadd A oy (b_height b)) _ _ _ _ _ _ _ _ _ _ P) as (E1 & E2 & E).
  rewrite E. rewrite draws_unfold, each_app. cbn [app].
  change (each ?f pre (?y :: post)) with (f pre y ++ each f (pre ++ [y]) post).
  cbn [hdraw]. unfold hvisible, run. cbn [t_height t_width]. rewrite Hh, Hd, Hw, Hb. cbn [andb]. unfold rect.
  exact (mid E1 _ [_] _ E2).
Qed.

Theorem C38_running_rule_v : forall ox oy k b sh gs (l : list tnode) t' st,
  ship_call ox oy (TL k b sh gs l) = LOk (t', st) ->
  forall k' bx' b' sh' gs' pre r post x v,
  place false b (TL k b sh gs l) f0 f0 true bx' (TL k' b' sh' gs' (pre ++ TRule r :: post)) x v ->
  finf A (b_width r) = true ->
  let h := fadd A (b_height r) (b_depth r) in
  fltb A f0 h = true -> fltb A f0 (b_depth r) = true ->
  let left := fadd A x ox in
  let bottom := fadd A (fadd A (vpos gs' (fsub A v (b_height bx')) pre) h) (fadd A oy (b_height b)) in
  exists E1 E2, s_out st = E1 ++ [ERect left bottom (fadd A left (b_width bx')) (fadd A bottom h)] ++ E2.
Proof.
  intros * H * P Hw h Hh Hd left bottom. apply ship_ok_inv in H as (N & _ & ->). cbn [s_out].
  destruct (draws_place ox (fadd A oy (b_height b)) _ _ _ _ _ _ _ _ _ _ P) as (E1 & E2 & E).
  rewrite E. rewrite draws_unfold, each_app. cbn [app].
  change (each ?f pre (?y :: post)) with (f pre y ++ each f (pre ++ [y]) post).
  cbn [vdraw]. unfold vvisible, run. cbn [t_height t_depth]. fold h. rewrite Hh, Hd, Hw. cbn [andb]. unfold rect.
  exact (mid E1 _ [_] _ E2).
Qed.

(** ** C37, skipped boxes: a box without depth does not advance. *)
Theorem C37_flat_box_skipped : zero_laws (A:=A) -> forall gs top (pre : list tnode) h post,
  vpos gs top (pre ++ vbox h f0 :: post) =
  after (below gs) (vpos gs top pre) (pre ++ [vbox h f0]) post.
Proof.
  intros ZL *. unfold vpos at 1. rewrite after_app. cbn [after app]. fold (vpos gs top pre).
  assert (E : below gs pre (vbox h f0) (vpos gs top pre) = vpos gs top pre); [|now rewrite E].
  unfold vbox, below, vvisible. cbn [t_depth b_depth new_box]. now rewrite (zl_lt ZL), andb_false_r.
Qed.

End Generic.

(** float64 and exact arithmetic satisfy the zero laws. *)
Lemma float64_zero : zero_laws (A:=float64).
Proof. constructor; vm_compute; reflexivity. Qed.
Lemma exact_zero : zero_laws (A:=exact).
Proof.
  constructor; try reflexivity; rewrite ?shrink_exact, ?grow_exact, f0_exact; apply xmul_0.
Qed.

Theorem C36_built_never_panics : forall S (be : @backend float64 S) (t : @Box.tnode float64),
  built be t -> (exists k b sh gs l, t = TL k b sh gs l) ->
  forall ox oy, exists t' st, ship_call ox oy t = LOk (t', st).
Proof. exact (C36_built_never_panics_generic float64_zero). Qed.

(** ** C33 *)
Theorem C33_translation_exact : forall ox oy dx dy k b sh gs (l : list tnode) t' st,
  let t := TL k b sh gs l in
  ship_call (A:=exact) ox oy t = LOk (t', st) ->
  exists st', ship_call (A:=exact) (xadd ox dx) (xadd oy dy) t = LOk (t', st') /\
    s_out st' = map (move dx dy) (s_out st).
Proof.
  intros. apply ship_ok_inv in H as (N & -> & ->). subst t.
  rewrite (ship_call_spec _ _ _ _ _ _ _ N). eexists. split; [reflexivity|]. cbn [s_out].
  replace (fadd exact (xadd oy dy) (b_height b)) with (xadd (xadd oy (b_height b)) dy) by (cbn [fadd exact]; apply swap).
  apply draws_move.
Qed.

(** ** C34 *)
Theorem C34_advance_exact : forall ox oy k b sh gs (l : list tnode) t' st,
  ship_call (A:=exact) ox oy (TL k b sh gs l) = LOk (t', st) ->
  s_h st = xadd (fsum (map t_width l)) (xofZ (glue_upto gs l)).
Proof.
  intros. apply ship_ok_inv in H as (_ & _ & ->). cbn [s_h]. rewrite hpos_sum, f0_exact, xadd_0_l. reflexivity.
Qed.

Local Open Scope Q_scope.
Definition within (e : Q) (x y : xq) : Prop :=
  exists a b : Qc, x = Fin a /\ y = Fin b /\ - e <= this a - this b <= e.

Definition billion : Q := inject_Z 1000000000.

Lemma clamp_id q : - billion <= this q <= billion -> clamp (A:=exact) (Fin q) = Fin q.
Proof.
  intros [H1 H2]. unfold clamp. cbn [fltb fofZ exact xofZ].
  assert (E1 : xltb (Fin q) (xofZ (-1000000000)) = false).
  { cbn. apply qltb_false. unfold Qcle. cbn [this Q2Qc]. rewrite Qred_correct. exact H1. }
  assert (E2 : xltb (xofZ 1000000000) (Fin q) = false).
  { cbn. apply qltb_false. unfold Qcle. cbn [this Q2Qc]. rewrite Qred_correct. exact H2. }
  now rewrite E1, E2.
Qed.

(** A list packed to width [w] with usable glue: the position after its last node
    is within 1/2 of [w] (exactly: natural width plus the rounded difference). *)
Lemma packed_end w b sh gs (l : list tnode) : 
  fin (fsum (map t_width l)) ->
  (forall o, (o <= 3)%nat -> fin (tot_stretch l o) /\ fin (tot_shrink l o)) ->
  let t := hpack (A:=exact) (Fin w) false (TL KHList b sh gs l) in
  gs_sign (t_glue t) <> 0%Z ->
  (forall n, fsum (map t_width l) = Fin n -> - billion <= this w - this n <= billion) ->
  within (1 # 2) (hpos (t_glue t) f0 l) (Fin w).
Proof.
  intros (n & Hn) Hf t Hs Hb.
  pose proof (C26_glue_fills_exact (Fin w) b sh gs l (ex_intro _ w eq_refl) (ex_intro _ n Hn) Hf) as G.
  cbv zeta in G. fold t in G. specialize (G Hs).
  specialize (Hb n Hn).
  rewrite hpos_sum, f0_exact, xadd_0_l. rewrite Hn in *.
  set (g := t_glue t) in *. set (tot := (if (gs_sign g =? 1)%Z then tot_stretch l else tot_shrink l) (gs_order g)) in *.
  (* the elastic total is the chosen one *)
  assert (Et : fsum (elastics g l) = tot).
  { rewrite elastics_tot by assumption. subst tot. destruct (gs_sign g =? 1)%Z; reflexivity. }
  assert (Ef : exists e, xmul (gs_set g) tot = Fin e /\ (this e == this w - this n)).
  { destruct (xmul (gs_set g) tot) as [e| | |] eqn:Em; try discriminate.
    exists e. split; [reflexivity|]. cbn in G. injection G as G'. subst w. unfold Qcplus. cbn [this Q2Qc].
    rewrite Qred_correct. ring. }
  destruct Ef as (e & Em & Ee).
  assert (Eu : glue_upto g l = qround e).
  { unfold glue_upto. destruct (elastics g l) as [|z zs] eqn:El.
    - exfalso. (* no elasticity: the total is zero *)
      assert (tot = Fin 0) by (rewrite <- Et; apply fsum_nil).
      pose proof (C26_hpack_glue exact (Fin w) false b sh gs l) as GS. cbv zeta in GS. fold t in GS. fold g in GS.
      inversion GS; subst g0; try congruence.
      + apply H3. apply zero_iff. unfold tot in H. rewrite H2 in H. exact H.
      + apply H3. apply zero_iff. unfold tot in H. rewrite H2 in H. exact H.
    - rewrite Et. change (fmul exact) with xmul. rewrite Em, clamp_id; [reflexivity|]. rewrite Ee. exact Hb. }
  rewrite Eu. exists (n + Q2Qc (inject_Z (qround e)))%Qc, w. split; [reflexivity|]. split; [reflexivity|].
  pose proof (qround_bound e) as B. unfold Qcplus. cbn [this Q2Qc].
  rewrite !Qred_correct. rewrite Ee in B. lra.
Qed.

Theorem C34_fills_width_exact : forall ox oy w b sh gs (l : list tnode) t' st,
  fin (fsum (map t_width l)) ->
  (forall o, (o <= 3)%nat -> fin (tot_stretch l o) /\ fin (tot_shrink l o)) ->
  let t := hpack (A:=exact) (Fin w) false (TL KHList b sh gs l) in
  gs_sign (t_glue t) <> 0%Z ->
  (forall n, fsum (map t_width l) = Fin n -> - billion <= this w - this n <= billion) ->
  ship_call ox oy t = LOk (t', st) ->
  within (1 # 2) (s_h st) (Fin w).
Proof.
  intros * Hn Hf t Hs Hb H.
  pose proof (packed_end w b sh gs l Hn Hf Hs Hb) as P. unfold t in H. cbn [hpack] in H.
  apply ship_ok_inv in H as (_ & _ & ->). exact P.
Qed.

(** Seen from outside: the right edge of a final character is within 1/2 of the
    right edge of the list. *)
Theorem C34_last_char_exact : forall ox oy w b sh gs (pre : list tnode) c t' st,
  let l := pre ++ [TChar c] in
  fin ox -> fin (fsum (map t_width l)) ->
  (forall o, (o <= 3)%nat -> fin (tot_stretch l o) /\ fin (tot_shrink l o)) ->
  let t := hpack (A:=exact) (Fin w) false (TL KHList b sh gs l) in
  gs_sign (t_glue t) <> 0%Z ->
  (forall n, fsum (map t_width l) = Fin n -> - billion <= this w - this n <= billion) ->
  ship_call ox oy t = LOk (t', st) ->
  exists E x y, s_out st = E ++ [EGlyph x y (c_font c) (c_sym c) (c_dpi c)] /\
    within (1 # 2) (xadd x (c_width c)) (xadd ox (Fin w)).
Proof.
  intros * (o & ->) Hn Hf t Hs Hb H.
  pose proof (packed_end w b sh gs l Hn Hf Hs Hb) as P.
  subst t. subst l. cbn [hpack] in H, P. cbn [t_glue] in P.
  apply ship_ok_inv in H as (_ & _ & ->). cbn [s_out b_height].
  set (g := pack_glue _ _ _) in *.
  rewrite draws_unfold, each_app. cbn [app each hdraw].
  eexists _, _, _. split; [reflexivity|].
  rewrite hpos_snoc in P. unfold right_of in P. cbn [t_width] in P.
  change (fadd exact) with xadd in *.
  destruct P as (a & b' & Ha & Hb' & Hw). injection Hb' as <-.
  exists (a + o)%Qc, (o + w)%Qc. rewrite swap, Ha. split; [reflexivity|]. split; [reflexivity|].
  unfold Qcplus. cbn [this Q2Qc]. rewrite !Qred_correct. lra.
Qed.

(** ** C37 *)

(** A naturally packed vertical list whose boxes and rules have positive depth or
    no extent: shipping, which starts at its top, ends at its bottom. *)
Theorem C37_vertical_advance_exact : forall S (s : S) (l : list tnode) (t : tnode),
  vlist_of (A:=exact) l s = LOk (t, s) ->
  fin (t_height t) ->
  (forall x, In x l -> is_solid x = true -> vvisible x = true \/ xadd (t_height x) (t_depth x) = Fin 0) ->
  forall v, vpos (t_glue t) (xsub v (t_height t)) l = xadd v (t_depth t).
Proof.
  intros S s l t H (h & Hh) Hv v. unfold vlist_of in H.
  destruct (vpack f0 true (fpinf exact) (list_of KVList l)) as [t1|] eqn:E; try discriminate.
  inversion H; subst t1. clear H.
  pose proof (C25_vpack_total_exact f0 PInf _ _ _ l t (or_intror eq_refl) E) as T.
  rewrite f0_exact, xadd_0_l in T.
  unfold list_of in E. cbn [vpack] in E. destruct (vfold l dims0) as [d|] eqn:Ef; try discriminate.
  assert (N : forall x, fltb exact (fpinf exact) x = false) by (intros []; reflexivity).
  rewrite !N in E.
  apply (f_equal (fun r => match r with LOk x => x | _ => t end)) in E. cbv beta iota in E. subst t. cbn [t_height t_depth t_glue b_height b_depth] in *.
  assert (Fd : fin (d_h d)).
  { revert Hh. change (fadd exact f0 (d_h d)) with (xadd f0 (d_h d)). rewrite f0_exact, xadd_0_l. intros ->. eexists; reflexivity. }
  rewrite vpos_natural; auto.
  - rewrite <- T. change (fadd exact) with xadd in *. rewrite Hh.
    rewrite xadd_assoc, xadd_sub_fin. reflexivity.
  - apply natural_sign. exact Fd.
  - intros x Hx c. destruct (vfold_nochar _ _ _ Ef c) as [N1 N2]. split; intros ->; tauto.
Qed.

(** Seen from outside: the baseline of the last line of such a list is the
    baseline of the whole list. *)
Theorem C37_last_baseline_exact : forall S (s : S) (pre : list tnode) b sh gs c (t : tnode) b0 sh0 gs0 ox oy t' st,
  let line := TL KHList b sh gs [TChar c] in
  vlist_of (A:=exact) (pre ++ [line]) s = LOk (t, s) ->
  fin (t_height t) -> fin (b_depth b) ->
  (forall x, In x pre -> is_solid x = true -> vvisible x = true \/ xadd (t_height x) (t_depth x) = Fin 0) ->
  ship_call ox oy (TL KHList b0 sh0 gs0 [t]) = LOk (t', st) ->
  exists E x, s_out st = E ++ [EGlyph x (xadd oy (b_height b0)) (c_font c) (c_sym c) (c_dpi c)].
Proof.
  intros * Hl Hh (d & Hd) Hv Hs.
  assert (K : exists bt gst, t = TL KVList bt f0 gst (pre ++ [line]) /\ b_depth bt = b_depth b).
  { unfold vlist_of in Hl. destruct (vpack _ _ _ _) as [t1|] eqn:E; try discriminate. inversion Hl; subst t1. clear Hl.
    pose proof (C25_vpack_dims exact exact_order _ _ _ _ _ _ _ _ E) as (_ & Ed & _ & _).
    unfold list_of in E. cbn [vpack] in E. destruct (vfold _ dims0) as [d'|] eqn:Ef; try discriminate. inversion E; subst t.
    eexists _, _. split; [reflexivity|]. cbn [t_depth b_depth] in *. rewrite Ed.
    unfold last_depth. rewrite rev_app_distr. cbn [rev app]. cbn [t_depth line]. rewrite Hd. reflexivity. }
  destruct K as (bt & gst & -> & Hdt).
  pose proof (C37_vertical_advance_exact S s (pre ++ [line]) _ Hl Hh) as V.
  cbn [t_glue t_height t_depth] in V.
  apply ship_ok_inv in Hs as (_ & _ & ->). cbn [s_out].
  rewrite draws_unfold. cbn [each hdraw is_vlist]. rewrite app_nil_r.
  rewrite draws_unfold, each_app. cbn [app each]. rewrite app_nil_r.
  unfold vdraw at 2. unfold line at 1. cbn [is_vlist]. unfold line at 1. rewrite draws_unfold. cbn [each hdraw app].
  eexists _, _. f_equal. unfold glyph. f_equal. f_equal.
  assert (V' : forall v, vpos gst (xsub v (b_height bt)) (pre ++ [line]) = xadd v (b_depth bt)).
  { apply V. intros x Hx Hi. apply in_app_or in Hx as [Hx|[<-|[]]]; [auto|discriminate]. }
  specialize (V' (xadd f0 f0)). rewrite vpos_snoc in V'. unfold line in V' at 1.
  cbn [below t_height t_depth] in V'. rewrite Hdt, Hd in V'.
  change (fadd exact) with xadd in *. change (fsub exact) with xsub in *.
  assert (C : forall a b', xadd a (Fin d) = xadd b' (Fin d) -> a = b').
  { intros a b' X. rewrite <- (xadd_sub_fin a (- d)%Qc), <- (xadd_sub_fin b' (- d)%Qc).
    unfold xsub. cbn [xopp]. rewrite Qcopp_involutive. now rewrite X. }
  apply C in V'. change (t_height line) with (b_height b). rewrite V', f0_exact, !xadd_0_l. reflexivity.
Qed.

(** A flat box makes the two disagree: with the depthless box the line is drawn
    its height too high. *)
Theorem C37_flat_box_disagrees_exact : forall S (s : S) (h : Qc) b sh gs c,
  (0 < h)%Qc ->
  let line := TL KHList b sh gs [TChar c] in
  fin (b_height b) -> fin (b_depth b) ->
  forall b0 sh0 gs0 ox oy t t' st,
  vlist_of (A:=exact) [vbox (Fin h) f0; line] s = LOk (t, s) ->
  ship_call ox oy (TL KHList b0 sh0 gs0 [t]) = LOk (t', st) ->
  exists x, s_out st = [EGlyph x (xsub (xadd oy (b_height b0)) (Fin h)) (c_font c) (c_sym c) (c_dpi c)].
Proof.
  intros * Hp line (qh & Eh) (qd & Ed) * Hl Hs. destruct b as [bsz bw bh bd]. cbn [b_height b_depth] in Eh, Ed. subst bh bd.
  cbn in Hl. unfold mret in Hl. injection Hl as <-.
  apply ship_ok_inv in Hs as (_ & _ & ->). cbn [s_out].
  rewrite draws_unfold. cbn [each hdraw is_vlist]. rewrite app_nil_r.
  rewrite draws_unfold. subst line. unfold vbox. cbn [each vdraw app is_vlist t_height]. rewrite app_nil_r.
  rewrite draws_unfold. cbn [each hdraw app]. unfold glyph. eexists. f_equal. f_equal.
  cbn [b_height]. change (TBox (new_box f0 (Fin h) f0)) with (vbox (A:=exact) (Fin h) f0).
  rewrite (C37_flat_box_skipped exact_zero _ _ [] (Fin h) []). cbn [after].
  change (vpos ?g ?p []) with p. change (fadd exact) with xadd. change (fsub exact) with xsub.
  unfold xsub. rewrite !f0_exact, !xadd_0_l.
  destruct (xadd oy (b_height b0)); cbn; try reflexivity. f_equal.
  change (Q2Qc (inject_Z 0)) with (0%Qc). ring.
Qed.
Local Close Scope Q_scope.

(** ** Concrete cases, in float64 *)

(** A fraction-like tree: a horizontal list with a character, a shifted vertical
    list (two lines around a running rule) and stretched glue. *)
Definition ship_line (s : string) : @Box.tnode float64 := TL KHList (new_box 6 7 0)%float 0%float gset0 [c27_char s].
Definition ship_v : @Box.tnode float64 :=
  TL KVList (new_box 10 9 8)%float 2%float gset0 [ship_line "A"; new_rule infinity 1%float 1%float; ship_line "V"].
Definition ship_tree : @Box.tnode float64 :=
  hpack 40%float false (TL KHList (new_box 0 0 0)%float 0%float gset0
    [c27_char "A"; glue_fill; ship_v; new_rule 2%float infinity infinity; glue_fill; c27_char "V"]).
Definition ship_ft : @font float64 := mk_font "default" "rm" 10%float.

(** Drawing calls as plain data. *)
Definition dump (e : @Ship.event float64) : string * list float :=
  match e with
  | EGlyph x y ft s d => (s, [x; y; f_size ft; d])
  | ERect x1 y1 x2 y2 => ("", [x1; y1; x2; y2])
  end.
Definition shown (r : lres (@Box.tnode float64 * @Ship.ship float64)) : list (string * list float) :=
  match r with LOk (_, st) => map dump (s_out st) | _ => [] end.

Example C31_case :
  shown (ship_call 1%float 2%float ship_tree) =
      [("A", [1; 9; 10; 72]); ("A", [15; 9; 10; 72]); ("", [15; 11; 25; 13]); ("V", [15; 18; 10; 72]);
       ("", [25; 19; 27; 26]); ("V", [35; 9; 10; 72])]%float.
Proof. vm_compute. reflexivity. Qed.

(** The nested vertical list of [ship_tree] and its place (C31, C38). *)
Example C38_case : exists b gs l, ship_tree = TL KHList b 0%float gs l /\
  place false b ship_tree f0 f0 true (t_box ship_v) ship_v (hpos gs f0 [c27_char "A"; glue_fill]) (f0 + 2)%float.
Proof.
  eexists _, _, _. split; [reflexivity|].
  refine (place_h _ _ _ _ _ [c27_char "A"; glue_fill] KVList _ _ _ _ [new_rule 2%float infinity infinity; glue_fill; c27_char "V"] _ _ _ _ _ _ _ (or_intror eq_refl) _).
  apply place_here.
Qed.

(** A tree that panics: a cluster in a horizontal list. *)
Example C36_case : stuck (A:=float64) false (TL KHList (new_box 1 1 1)%float 0%float gset0 [TL KCluster (new_box 1 1 0)%float 0%float gset0 []]) /\
  ~ stuck false ship_tree.
Proof.
  split.
  - eapply stuck_box; [now left|reflexivity|discriminate|reflexivity].
  - apply (C36_panics_iff 0%float 0%float). 
    assert (X : match ship_call 0%float 0%float ship_tree with LOk _ => true | _ => false end = true) by (vm_compute; reflexivity).
    change (exists t' st, ship_call 0%float 0%float ship_tree = LOk (t', st)).
    destruct (ship_call 0%float 0%float ship_tree) as [[t' st]|]; [eauto|discriminate].
Qed.

(** A list to which C34 and C37 apply. *)
Example C34_case : let l := [new_kern (A:=exact) (xofZ 3); glue_fill; hbox (xofZ 4)] in
  fin (fsum (map t_width l)) /\
  (forall o, (o <= 3)%nat -> fin (tot_stretch l o) /\ fin (tot_shrink l o)) /\
  gs_sign (t_glue (hpack (A:=exact) (xofZ 10) false (TL KHList (new_box f0 f0 f0) f0 gset0 l))) = 1.
Proof.
  cbv zeta. split; [eexists; reflexivity|]. split.
  - intros o Ho. do 4 (destruct o as [|o]; [split; eexists; reflexivity|]). lia.
  - reflexivity.
Qed.
Example C37_case : exists t,
  vlist_of (A:=exact) (S:=unit) [new_rule PInf (xofZ 1) (xofZ 1); new_kern (xofZ 2); TL KHList (new_box (xofZ 5) (xofZ 4) (xofZ 1)) f0 gset0 []] tt = LOk (t, tt) /\
  t_height t = xofZ 8 /\ t_depth t = xofZ 1 /\
  vvisible (A:=exact) (new_rule PInf (xofZ 1) (xofZ 1)) = true.
Proof. eexists. split; [reflexivity|]. repeat split. Qed.
