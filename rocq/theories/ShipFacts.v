(** The traversal of tex/box.go refines ShipSpec. *)
From Coq Require Import ZArith Bool List String Ascii Lia.
From Verif Require Import Arith Box Ship ShipSpec.
Import ListNotations.
Local Open Scope Z_scope.
Local Open Scope list_scope.

Section ShipFacts.
Context {A : arith}.
Notation F := (F A).
Notation tnode := (@tnode A).
Notation gset := (@gset A).
Notation box := (@box A).
Notation glue := (@glue A).
Notation tchar := (@tchar A).
Notation event := (@event A).
Notation ship := (@ship A).
Local Open Scope F.

Lemma after_app step p pre l1 l2 :
  @after A step p pre (l1 ++ l2) = after step (after step p pre l1) (pre ++ l1) l2.
Proof.
  revert p pre; induction l1 as [|x l1 IH]; intros; cbn [app after].
  - now rewrite app_nil_r.
  - rewrite IH, <- app_assoc. reflexivity.
Qed.

Lemma hpos_snoc gs x0 pre x : hpos (A:=A) gs x0 (pre ++ [x]) = right_of gs pre x (hpos gs x0 pre).
Proof. unfold hpos. rewrite after_app. reflexivity. Qed.
Lemma vpos_snoc gs x0 pre x : vpos (A:=A) gs x0 (pre ++ [x]) = below gs pre x (vpos gs x0 pre).
Proof. unfold vpos. rewrite after_app. reflexivity. Qed.

Lemma each_app {X} (f : list tnode -> tnode -> list X) pre l1 l2 :
  each f pre (l1 ++ l2) = each f pre l1 ++ each f (pre ++ l1) l2.
Proof.
  revert pre; induction l1 as [|x l1 IH]; intros; cbn [app each].
  - now rewrite app_nil_r.
  - cbn. rewrite IH, <- !app_assoc. reflexivity.
Qed.

(** Running totals *)
Definition gtot (gs : gset) (pre : list tnode) : F := fsum (elastics gs pre).

Lemma elastics_snoc gs pre x :
  elastics (A:=A) gs (pre ++ [x]) = elastics gs pre ++ match elastic gs x with Some e => [e] | None => [] end.
Proof. unfold elastics. rewrite flat_map_app. cbn. now rewrite app_nil_r. Qed.

Lemma fsum_snoc l x : fsum (A:=A) (l ++ [x]) = fsum l + x.
Proof. unfold fsum. now rewrite fold_left_app. Qed.

Lemma glue_step_spec gs g pre :
  glue_step gs g (glue_upto gs pre) (gtot gs pre) =
  (glue_size gs pre g, glue_upto gs (pre ++ [TGlue g]), gtot gs (pre ++ [TGlue g])).
Proof.
  assert (H : forall e, elastic gs (TGlue g) = Some e ->
    glue_upto gs (pre ++ [TGlue g]) = fround A (clamp (gs_set gs * (gtot gs pre + e)))
    /\ gtot gs (pre ++ [TGlue g]) = gtot gs pre + e).
  { intros e He. unfold glue_upto, gtot. rewrite elastics_snoc, He, fsum_snoc.
    split; [|reflexivity]. destruct (elastics gs pre) as [|f l]; [reflexivity|]. cbn [app].
    change (f :: l ++ [e]) with ((f :: l) ++ [e]). now rewrite fsum_snoc. }
  assert (H' : elastic gs (TGlue g) = None ->
    glue_upto gs (pre ++ [TGlue g]) = glue_upto gs pre /\ gtot gs (pre ++ [TGlue g]) = gtot gs pre).
  { intros He. unfold glue_upto, gtot. rewrite elastics_snoc, He, app_nil_r. auto. }
  unfold glue_step, glue_size. cbn [elastic] in H, H'.
  destruct (gs_sign gs =? 0)%Z; [destruct (H' eq_refl) as [-> ->]; reflexivity|].
  destruct (gs_sign gs =? 1)%Z.
  - destruct (Nat.eqb _ _); [destruct (H _ eq_refl) as [-> ->]|destruct (H' eq_refl) as [-> ->]]; reflexivity.
  - destruct (Nat.eqb _ _); [destruct (H _ eq_refl) as [-> ->]|destruct (H' eq_refl) as [-> ->]]; reflexivity.
Qed.

Lemma glue_upto_other gs pre x : (forall g, x <> TGlue g) -> glue_upto (A:=A) gs (pre ++ [x]) = glue_upto gs pre.
Proof.
  intros H. unfold glue_upto. rewrite elastics_snoc.
  destruct x; cbn [elastic]; rewrite ?app_nil_r; try reflexivity. now destruct (H g).
Qed.
Lemma gtot_other gs pre x : (forall g, x <> TGlue g) -> gtot gs (pre ++ [x]) = gtot gs pre.
Proof.
  intros H. unfold gtot. rewrite elastics_snoc.
  destruct x; cbn [elastic]; rewrite ?app_nil_r; try reflexivity. now destruct (H g).
Qed.

(** The state after shipping a list. *)
Definition shipped (ox oy : F) (vert : bool) (bx : box) (t : tnode) (st : ship) : ship :=
  let gs := t_glue t in
  let l := t_nodes t in
  mk_ship (Z.max (s_max st) (s_s st + nest t)) (s_s st)
    (if vert then vpos gs (s_v st - b_height bx) l else s_v st)
    (if vert then s_h st else hpos gs (s_h st) l)
    (s_out st ++ draws ox oy vert bx t (s_h st) (s_v st)).

Definition is_list (t : tnode) : Prop := match t with TL _ _ _ _ _ => True | _ => False end.

(** Replacing only the width of the box changes neither [stuck] nor [nest]. *)
Lemma stuck_box_width vert k b b' sh gs l :
  b_height b = b_height b' -> stuck (A:=A) vert (TL k b sh gs l) -> stuck vert (TL k b' sh gs l).
Proof.
  intros Hh H. inversion H; subst.
  - eapply stuck_char; eauto.
  - eapply stuck_accent; eauto.
  - eapply stuck_box; eauto. unfold hvisible in *. now rewrite <- Hh.
  - eapply stuck_sub; eauto.
Qed.

(** Statement proved by induction on the tree: with the list's height kept,
    shipping panics if stuck, and otherwise gives the specified state. *)
Definition ok (t : tnode) : Prop :=
  forall ox oy vert bx st,
    match t with
    | TL k b sh gs l =>
      b_height bx = b_height b ->
      (stuck vert t -> exists e, ship_out ox oy vert bx t st = LPanic e) /\
      (~ stuck vert t -> ship_out ox oy vert bx t st = LOk (overwritten vert bx t, shipped ox oy vert bx t st))
    | _ => True
    end.

(** Stuck through the node [x] of a list with box [bx]. *)
Definition nstuck (vert : bool) (bx : box) (x : tnode) : Prop :=
  (vert = true /\ exists c, x = TChar c \/ x = TAccent c) \/
  (vert = false /\ is_solid x = true /\ (forall r, x <> TRule r) /\ hvisible bx x = true) \/
  (is_sub x = true /\ match x with TL k _ _ _ _ => stuck (is_vlist k) x | _ => False end).

Lemma stuck_iff vert k b sh gs l :
  stuck (A:=A) vert (TL k b sh gs l) <-> exists x, In x l /\ nstuck vert b x.
Proof.
  split.
  - intros H. inversion H; subst.
    + exists (TChar c). split; auto. left. eauto.
    + exists (TAccent c). split; auto. left. eauto.
    + exists x. split; auto. right; left. auto.
    + eexists; split; eauto. right; right. auto.
  - intros (x & Hin & [(-> & c & [->| ->]) | [(-> & H1 & H2 & H3) | (H1 & H2)]]).
    + eapply stuck_char; eauto.
    + eapply stuck_accent; eauto.
    + eapply stuck_box; eauto.
    + destruct x; try contradiction. eapply stuck_sub; eauto.
Qed.

Definition sub_nest (x : tnode) : Z := match x with TL (KHList | KVList) _ _ _ (_ :: _) => nest x | _ => 0%Z end.
Definition over1 (vert : bool) (bx : box) (y : tnode) : tnode :=
  match y with
  | TL ((KHList | KVList) as k') b _ _ (_ :: _) =>
    overwritten (is_vlist k') (if vert then box_width (b_width bx) b else b) y
  | _ => y
  end.

Definition hdraw (ox oy : F) (bx : box) (gs : gset) (x v : F) (pre : list tnode) (y : tnode) : list event :=
  let left := hpos gs x pre in
  match y with
  | TChar c => [glyph (left + ox) (v + oy) c]
  | TAccent c =>
    [glyph (left + ox - m_xmin (c_metrics c)) (v + oy + m_ymin (c_metrics c)) c]
  | TL ((KHList | KVList) as k) b sh _ _ => draws ox oy (is_vlist k) b y left (v + sh)
  | TRule r =>
    if hvisible bx y
    then [rect (left + ox) (v + run (b_depth r) (b_depth bx) + oy) (b_width r) (run (b_height r) (b_height bx))]
    else []
  | _ => []
  end.
Definition vdraw (ox oy : F) (bx : box) (gs : gset) (x v : F) (pre : list tnode) (y : tnode) : list event :=
  let top := vpos gs (v - b_height bx) pre in
  match y with
  | TL ((KHList | KVList) as k) b sh _ _ =>
    draws ox oy (is_vlist k) (box_width (b_width bx) b) y (x + sh) (top + t_height y)
  | TRule r =>
    let h := b_height r + b_depth r in
    if vvisible y then [rect (x + ox) (top + h + oy) (run (b_width r) (b_width bx)) h] else []
  | _ => []
  end.

Lemma draws_unfold ox oy vert bx k b sh gs l x v :
  draws ox oy vert bx (TL k b sh gs l) x v =
  each (if vert then vdraw ox oy bx gs x v else hdraw ox oy bx gs x v) [] l.
Proof.
  change (draws ox oy vert bx (TL k b sh gs l) x v) with
    (each (fun pre y => if vert then vdraw ox oy bx gs x v pre y else hdraw ox oy bx gs x v pre y) [] l).
  destruct vert; generalize (@nil tnode) at 1 2 as pre; induction l as [|y l IH]; intros; cbn; [reflexivity|now rewrite IH| reflexivity|now rewrite IH].
Qed.

Lemma draws_empty ox oy vert bx k b sh gs x v : draws ox oy vert bx (@TL A k b sh gs []) x v = [].
Proof. reflexivity. Qed.

Lemma hstep_spec ox oy bx b0 gs base x0 x pre m s out :
  ok x -> b_height bx = b_height b0 -> (s <= m)%Z ->
  let st := mk_ship m s base (hpos gs x0 pre) out in
  (nstuck false b0 x -> exists e, hstep (ship_out ox oy) ox oy bx gs base x (glue_upto gs pre) (gtot gs pre) st = LPanic e)
  /\ (~ nstuck false b0 x ->
      hstep (ship_out ox oy) ox oy bx gs base x (glue_upto gs pre) (gtot gs pre) st =
      LOk (over1 false bx x, glue_upto gs (pre ++ [x]), gtot gs (pre ++ [x]),
           mk_ship (Z.max m (s + sub_nest x)) s base (hpos gs x0 (pre ++ [x]))
             (out ++ hdraw ox oy bx gs x0 base pre x))).
Proof.
  intros Hok Hh Hms st.
  assert (Hm0 : Z.max m (s + 0) = m) by lia.
  destruct x as [b|c|c|b|g|sz w|k b sh gs' xs].
  - (* TBox *)
    rewrite glue_upto_other, gtot_other, hpos_snoc by congruence. cbn [hstep over1 sub_nest hdraw right_of t_width].
    unfold right_of; cbn [t_width]. rewrite Hm0, app_nil_r.
    split.
    + intros [(? & ?)|[(_ & _ & _ & Hv)|(Hs & _)]]; [discriminate| |discriminate].
      unfold hvisible, run in Hv. cbn in Hv. rewrite <- Hh in Hv. rewrite Hv. eauto.
    + intros Hn. destruct (_ && _) eqn:Hv; [|reflexivity].
      destruct Hn. right; left. repeat split; try congruence. unfold hvisible, run. cbn. now rewrite <- Hh.
  - (* TChar *)
    rewrite glue_upto_other, gtot_other, hpos_snoc by congruence. cbn [hstep over1 sub_nest hdraw].
    unfold right_of; cbn [t_width]. rewrite Hm0.
    split; [intros [(? & ?)|[(_ & ? & _)|(Hs & _)]]; discriminate|]. reflexivity.
  - (* TAccent *)
    rewrite glue_upto_other, gtot_other, hpos_snoc by congruence. cbn [hstep over1 sub_nest hdraw].
    unfold right_of; cbn [t_width]. rewrite Hm0.
    split; [intros [(? & ?)|[(_ & ? & _)|(Hs & _)]]; discriminate|]. reflexivity.
  - (* TRule *)
    rewrite glue_upto_other, gtot_other, hpos_snoc by congruence. cbn [hstep over1 sub_nest hdraw].
    unfold right_of; cbn [t_width]. rewrite Hm0.
    split.
    + intros [(? & ?)|[(_ & _ & Hr & _)|(Hs & _)]]; [discriminate| |discriminate]. now destruct (Hr b).
    + intros _. unfold hvisible, run. cbn [t_height t_width].
      destruct (_ && _); [reflexivity|]. now rewrite app_nil_r.
  - (* TGlue *)
    unfold hstep. rewrite glue_step_spec. cbn [over1 sub_nest hdraw].
    rewrite Hm0, app_nil_r, hpos_snoc. unfold right_of.
    split; [intros [(? & ?)|[(_ & ? & _)|(Hs & _)]]; discriminate|]. reflexivity.
  - (* TKern *)
    rewrite glue_upto_other, gtot_other, hpos_snoc by congruence. cbn [hstep over1 sub_nest hdraw].
    unfold right_of; cbn [t_width]. rewrite Hm0, app_nil_r.
    split; [intros [(? & ?)|[(_ & ? & _)|(Hs & _)]]; discriminate|]. reflexivity.
  - (* lists *)
    rewrite glue_upto_other, gtot_other, hpos_snoc by congruence.
    unfold right_of; cbn [t_width].
    assert (Hsolid : is_solid (TL k b sh gs' xs) = true ->
      (nstuck false b0 (TL k b sh gs' xs) <-> hvisible b0 (TL k b sh gs' xs) = true)).
    { intros Hs. split.
      - intros [(? & ?)|[(_ & _ & _ & ?)|(Hs' & _)]]; [discriminate|assumption|]. destruct k; discriminate.
      - intros Hv. right; left. repeat split; auto; congruence. }
    assert (Hsub : is_sub (TL k b sh gs' xs) = true ->
      (nstuck false b0 (TL k b sh gs' xs) <-> stuck (is_vlist k) (TL k b sh gs' xs))).
    { intros Hs. split.
      - intros [(? & ?)|[(_ & Hs' & _)|(_ & ?)]]; [discriminate| |assumption]. destruct k; discriminate.
      - intros Hv. right; right. auto. }
    assert (Hemp : xs = [] -> ~ stuck (is_vlist k) (TL k b sh gs' xs)).
    { intros -> Hst. apply stuck_iff in Hst as (y & [] & _). }
    specialize (Hok ox oy (is_vlist k) b (set_v (base + sh) st) eq_refl) as [Ho1 Ho2].
    destruct k.
    + (* KList *)
      rewrite Hsolid by reflexivity. unfold hvisible, run. cbn [t_height t_width hstep over1 sub_nest hdraw].
      rewrite <- Hh, Hm0, app_nil_r.
      split; [intros ->; eauto|]. intros Hn. destruct (_ && _); [congruence|reflexivity].
    + rewrite Hsub by reflexivity. cbn [hstep over1 sub_nest hdraw is_vlist] in *.
      destruct xs as [|y ys].
      * rewrite Hm0, draws_empty, app_nil_r. split; [intros H; now destruct (Hemp eq_refl)|reflexivity].
      * split.
        { intros H. destruct (Ho1 H) as (e & ->). eauto. }
        { intros H. rewrite (Ho2 H). unfold shipped. cbn. reflexivity. }
    + rewrite Hsub by reflexivity. cbn [hstep over1 sub_nest hdraw is_vlist] in *.
      destruct xs as [|y ys].
      * rewrite Hm0, draws_empty, app_nil_r. split; [intros H; now destruct (Hemp eq_refl)|reflexivity].
      * split.
        { intros H. destruct (Ho1 H) as (e & ->). eauto. }
        { intros H. rewrite (Ho2 H). unfold shipped. cbn. reflexivity. }
    + rewrite Hsolid by reflexivity. unfold hvisible, run. cbn [t_height t_width hstep over1 sub_nest hdraw].
      rewrite <- Hh, Hm0, app_nil_r.
      split; [intros ->; eauto|]. intros Hn. destruct (_ && _); [congruence|reflexivity].
Qed.

Lemma vstep_spec ox oy bx b0 gs left v0 x pre m s out :
  ok x -> b_height bx = b_height b0 -> (s <= m)%Z ->
  let st := mk_ship m s (vpos gs (v0 - b_height bx) pre) left out in
  (nstuck true b0 x -> exists e, vstep (ship_out ox oy) ox oy bx gs left x (glue_upto gs pre) (gtot gs pre) st = LPanic e)
  /\ (~ nstuck true b0 x ->
      vstep (ship_out ox oy) ox oy bx gs left x (glue_upto gs pre) (gtot gs pre) st =
      LOk (over1 true bx x, glue_upto gs (pre ++ [x]), gtot gs (pre ++ [x]),
           mk_ship (Z.max m (s + sub_nest x)) s (vpos gs (v0 - b_height bx) (pre ++ [x])) left
             (out ++ vdraw ox oy bx gs left v0 pre x))).
Proof.
  intros Hok Hh Hms st.
  assert (Hm0 : Z.max m (s + 0) = m) by lia.
  destruct x as [b|c|c|b|g|sz w|k b sh gs' xs].
  - (* TBox *)
    rewrite glue_upto_other, gtot_other, vpos_snoc by congruence. cbn [vstep over1 sub_nest vdraw below].
    rewrite Hm0, app_nil_r. unfold vvisible; cbn [t_height t_depth].
    split; [intros [(_ & c & [?|?])|[(? & _)|(Hs & _)]]; discriminate|].
    intros _. destruct (_ && _); reflexivity.
  - (* TChar *)
    split; [eexists; reflexivity|]. intros H. destruct H. left. eauto.
  - split; [eexists; reflexivity|]. intros H. destruct H. left. eauto.
  - (* TRule *)
    rewrite glue_upto_other, gtot_other, vpos_snoc by congruence. cbn [vstep over1 sub_nest vdraw below].
    rewrite Hm0. unfold vvisible, run; cbn [t_height t_depth].
    split; [intros [(_ & c & [?|?])|[(? & _)|(Hs & _)]]; discriminate|].
    intros _. destruct (_ && _); [reflexivity|]. now rewrite app_nil_r.
  - (* TGlue *)
    unfold vstep. rewrite glue_step_spec. cbn [over1 sub_nest vdraw].
    rewrite Hm0, app_nil_r, vpos_snoc. cbn [below].
    split; [intros [(_ & c & [?|?])|[(? & _)|(Hs & _)]]; discriminate|]. reflexivity.
  - (* TKern *)
    rewrite glue_upto_other, gtot_other, vpos_snoc by congruence. cbn [vstep over1 sub_nest vdraw below].
    rewrite Hm0, app_nil_r.
    split; [intros [(_ & c & [?|?])|[(? & _)|(Hs & _)]]; discriminate|]. reflexivity.
  - rewrite glue_upto_other, gtot_other, vpos_snoc by congruence.
    assert (Hsolid : is_solid (TL k b sh gs' xs) = true -> ~ nstuck true b0 (TL k b sh gs' xs)).
    { intros Hs. intros [(_ & c & [?|?])|[(? & _)|(Hs' & _)]]; try discriminate. destruct k; discriminate. }
    assert (Hsub : is_sub (TL k b sh gs' xs) = true ->
      (nstuck true b0 (TL k b sh gs' xs) <-> stuck (is_vlist k) (TL k b sh gs' xs))).
    { intros Hs. split.
      - intros [(_ & c & [?|?])|[(? & _)|(_ & ?)]]; try discriminate; assumption.
      - intros Hv. right; right. auto. }
    assert (Hemp : xs = [] -> ~ stuck (is_vlist k) (TL k b sh gs' xs)).
    { intros -> Hst. apply stuck_iff in Hst as (y & [] & _). }
    specialize (Hok ox oy (is_vlist k) (box_width (b_width bx) b)
      (set_h (left + sh) (set_v (s_v st + b_height b) st)) eq_refl) as [Ho1 Ho2].
    destruct k.
    + split; [intros H; now destruct (Hsolid eq_refl)|]. intros _.
      cbn [vstep over1 sub_nest vdraw below]. rewrite Hm0, app_nil_r. unfold vvisible; cbn [t_height t_depth].
      destruct (_ && _); reflexivity.
    + rewrite Hsub by reflexivity. cbn [vstep over1 sub_nest vdraw is_vlist below] in *.
      destruct xs as [|y ys].
      * rewrite Hm0, draws_empty, app_nil_r. split; [intros H; now destruct (Hemp eq_refl)|reflexivity].
      * split.
        { intros H. destruct (Ho1 H) as (e & ->). eauto. }
        { intros H. rewrite (Ho2 H). unfold shipped. cbn. reflexivity. }
    + rewrite Hsub by reflexivity. cbn [vstep over1 sub_nest vdraw is_vlist below] in *.
      destruct xs as [|y ys].
      * rewrite Hm0, draws_empty, app_nil_r. split; [intros H; now destruct (Hemp eq_refl)|reflexivity].
      * split.
        { intros H. destruct (Ho1 H) as (e & ->). eauto. }
        { intros H. rewrite (Ho2 H). unfold shipped. cbn. reflexivity. }
    + split; [intros H; now destruct (Hsolid eq_refl)|]. intros _.
      cbn [vstep over1 sub_nest vdraw below]. rewrite Hm0, app_nil_r. unfold vvisible; cbn [t_height t_depth].
      destruct (_ && _); reflexivity.
Qed.

(** Being stuck is decidable. *)
Lemma stuck_dec (t : tnode) : forall vert, stuck vert t \/ ~ stuck vert t.
Proof.
  induction t as [b|c|c|b|g|sz w|k b sh gs l IH] using tnode_ind'; intros vert;
    try (right; intros H; inversion H; fail).
  assert (D : forall x, (forall vert, stuck vert x \/ ~ stuck vert x) -> nstuck vert b x \/ ~ nstuck vert b x).
  { intros x Hx. unfold nstuck.
    assert (D1 : (vert = true /\ exists c, x = TChar c \/ x = TAccent c) \/
                 ~ (vert = true /\ exists c, x = TChar c \/ x = TAccent c)).
    { destruct vert; [|right; intros [? _]; discriminate].
      destruct x; try (right; intros (_ & c & [?|?]); discriminate); left; eauto. }
    assert (D2 : (vert = false /\ is_solid x = true /\ (forall r, x <> TRule r) /\ hvisible b x = true) \/
                 ~ (vert = false /\ is_solid x = true /\ (forall r, x <> TRule r) /\ hvisible b x = true)).
    { destruct vert; [right; intros [? _]; discriminate|].
      destruct (is_solid x); [|right; intros (_ & ? & _); discriminate].
      destruct (hvisible b x); [|right; intros (_ & _ & _ & ?); discriminate].
      destruct x; try (left; repeat split; congruence). right; intros (_ & _ & H & _). now apply (H b0). }
    assert (D3 : (is_sub x = true /\ match x with TL k _ _ _ _ => stuck (is_vlist k) x | _ => False end) \/
                 ~ (is_sub x = true /\ match x with TL k _ _ _ _ => stuck (is_vlist k) x | _ => False end)).
    { destruct (is_sub x) eqn:Hs; [|right; intros (? & _); discriminate].
      destruct x; try (right; intros (_ & ?); assumption).
      destruct (Hx (is_vlist k0)); [left|right; intros (_ & ?)]; auto. }
    tauto. }
  assert (E : (exists x, In x l /\ nstuck vert b x) \/ ~ (exists x, In x l /\ nstuck vert b x)).
  { clear -IH D. induction IH as [|x l Hx _ IH]; [right; intros (x & [] & _)|].
    destruct (D x Hx); [left; exists x; cbn; auto|].
    destruct IH as [(y & ? & ?)|Hn]; [left; exists y; cbn; auto|].
    right. intros (y & [<-|Hy] & H'); [auto|]. apply Hn; eauto. }
  rewrite stuck_iff. exact E.
Qed.

Lemma nstuck_dec vert b (x : tnode) : nstuck vert b x \/ ~ nstuck vert b x.
Proof.
  destruct (stuck_dec (TL KHList b f0 gset0 [x]) vert) as [H|H]; rewrite stuck_iff in H.
  - destruct H as (y & [<-|[]] & ?). auto.
  - right. intros Hn. apply H. exists x. cbn. auto.
Qed.

Definition max_nest (l : list tnode) : Z := fold_right (fun x m => Z.max (sub_nest x) m) 0%Z l.
Lemma max_nest_pos l : (0 <= max_nest l)%Z.
Proof. unfold max_nest. induction l; cbn [fold_right]; lia. Qed.

Lemma kids_cons (step : tnode -> Z -> F -> ship -> step_res) x l G T st :
  kids step (x :: l) G T st =
  match step x G T st with
  | LOk (x', G, T, st') =>
    match kids step l G T st' with
    | LOk (r, st'') => LOk (x' :: r, st'')
    | LPanic e => LPanic e
    end
  | LPanic e => LPanic e
  end.
Proof. reflexivity. Qed.

Lemma kids_h ox oy bx b0 gs base x0 s (rest : list tnode) :
  b_height bx = b_height b0 -> Forall ok rest ->
  forall pre m out, (s <= m)%Z ->
  let st := mk_ship m s base (hpos gs x0 pre) out in
  let r := kids (hstep (ship_out ox oy) ox oy bx gs base) rest (glue_upto gs pre) (gtot gs pre) st in
  (Exists (nstuck false b0) rest -> exists e, r = LPanic e) /\
  (~ Exists (nstuck false b0) rest ->
   r = LOk (map (over1 false bx) rest,
            mk_ship (Z.max m (s + max_nest rest)) s base (hpos gs x0 (pre ++ rest))
              (out ++ each (hdraw ox oy bx gs x0 base) pre rest))).
Proof.
  intros Hh Hok. induction Hok as [|x rest Hx Hok IH]; intros pre m out Hms st r.
  - subst r st. cbn [kids map max_nest fold_right each]. split; [intros H; inversion H|]. intros _.
    rewrite !app_nil_r. rewrite Z.max_l by lia. reflexivity.
  - subst r st. rewrite kids_cons.
    destruct (hstep_spec ox oy bx b0 gs base x0 x pre m s out Hx Hh Hms) as [H1 H2].
    destruct (nstuck_dec false b0 x) as [Hs|Hs].
    + destruct (H1 Hs) as (e & ->). split; [eauto|]. intros H. destruct H. auto.
    + rewrite (H2 Hs).
      destruct (IH (pre ++ [x]) (Z.max m (s + sub_nest x)) (out ++ hdraw ox oy bx gs x0 base pre x)) as [I1 I2]; [lia|].
      split.
      * intros H. inversion H; subst; [contradiction|]. destruct (I1 H3) as (e & ->). eauto.
      * intros H. rewrite I2 by (intros ?; apply H; auto).
        cbn [map max_nest fold_right each]. fold (max_nest rest).
        rewrite <- !app_assoc. cbn [app].
        assert (E : (Z.max (Z.max m (s + sub_nest x)) (s + max_nest rest) = Z.max m (s + Z.max (sub_nest x) (max_nest rest)))%Z) by lia.
        rewrite E. reflexivity.
Qed.

Lemma kids_v ox oy bx b0 gs left v0 s (rest : list tnode) :
  b_height bx = b_height b0 -> Forall ok rest ->
  forall pre m out, (s <= m)%Z ->
  let st := mk_ship m s (vpos gs (v0 - b_height bx) pre) left out in
  let r := kids (vstep (ship_out ox oy) ox oy bx gs left) rest (glue_upto gs pre) (gtot gs pre) st in
  (Exists (nstuck true b0) rest -> exists e, r = LPanic e) /\
  (~ Exists (nstuck true b0) rest ->
   r = LOk (map (over1 true bx) rest,
            mk_ship (Z.max m (s + max_nest rest)) s (vpos gs (v0 - b_height bx) (pre ++ rest)) left
              (out ++ each (vdraw ox oy bx gs left v0) pre rest))).
Proof.
  intros Hh Hok. induction Hok as [|x rest Hx Hok IH]; intros pre m out Hms st r.
  - subst r st. cbn [kids map max_nest fold_right each]. split; [intros H; inversion H|]. intros _.
    rewrite !app_nil_r. rewrite Z.max_l by lia. reflexivity.
  - subst r st. rewrite kids_cons.
    destruct (vstep_spec ox oy bx b0 gs left v0 x pre m s out Hx Hh Hms) as [H1 H2].
    destruct (nstuck_dec true b0 x) as [Hs|Hs].
    + destruct (H1 Hs) as (e & ->). split; [eauto|]. intros H. destruct H. auto.
    + rewrite (H2 Hs).
      destruct (IH (pre ++ [x]) (Z.max m (s + sub_nest x)) (out ++ vdraw ox oy bx gs left v0 pre x)) as [I1 I2]; [lia|].
      split.
      * intros H. inversion H; subst; [contradiction|]. destruct (I1 H3) as (e & ->). eauto.
      * intros H. rewrite I2 by (intros ?; apply H; auto).
        cbn [map max_nest fold_right each]. fold (max_nest rest).
        rewrite <- !app_assoc. cbn [app].
        assert (E : (Z.max (Z.max m (s + sub_nest x)) (s + max_nest rest) = Z.max m (s + Z.max (sub_nest x) (max_nest rest)))%Z) by lia.
        rewrite E. reflexivity.
Qed.

Lemma nest_unfold k b sh gs l : nest (@TL A k b sh gs l) = (1 + max_nest l)%Z.
Proof. reflexivity. Qed.
Lemma overwritten_unfold vert bx k b sh gs l :
  overwritten vert bx (@TL A k b sh gs l) = TL k bx sh gs (map (over1 vert bx) l).
Proof. reflexivity. Qed.

Theorem ship_ok (t : tnode) : ok t.
Proof.
  induction t as [b|c|c|b|g|sz w|k b sh gs l IH] using tnode_ind'; unfold ok; intros ox oy vert bx st; try exact I.
  intros Hh. rewrite stuck_iff, <- Exists_exists. cbn [ship_out].
  set (s1 := (s_s st + 1)%Z).
  set (m1 := (if (s1 >? s_max st)%Z then s1 else s_max st)).
  assert (Hm1 : m1 = Z.max (s_max st) s1).
  { subst m1. rewrite Z.gtb_ltb. destruct (Z.ltb_spec (s_max st) s1); lia. }
  assert (Hp : push st = mk_ship m1 s1 (s_v st) (s_h st) (s_out st)) by reflexivity.
  rewrite Hp. cbn [s_h s_v].
  assert (Hmax : forall n, Z.max m1 (s1 + n) = Z.max (s_max st) (s_s st + (1 + Z.max 0 n))) by (intros; subst s1; lia).
  pose proof (max_nest_pos l) as Hpos.
  unfold shipped. rewrite nest_unfold, overwritten_unfold, draws_unfold. cbn [t_glue t_nodes].
  destruct vert.
  - destruct (kids_v ox oy bx b gs (s_h st) (s_v st) s1 l Hh IH [] m1 (s_out st)) as [H1 H2]; [lia|].
    unfold set_v. cbn [s_max s_s s_v s_h s_out].
    change (glue_upto gs []) with 0%Z in *. change (gtot gs []) with (@f0 A) in *.
    change (vpos gs (s_v st - b_height bx) []) with (s_v st - b_height bx) in *.
    split.
    + intros H. destruct (H1 H) as (e & ->). eauto.
    + intros H. rewrite (H2 H). unfold pop. cbn [s_max s_s s_v s_h s_out]. rewrite Hmax.
      replace (s1 - 1)%Z with (s_s st) by (subst s1; lia). rewrite (Z.max_r 0) by lia. reflexivity.
  - destruct (kids_h ox oy bx b gs (s_v st) (s_h st) s1 l Hh IH [] m1 (s_out st)) as [H1 H2]; [lia|].
    change (glue_upto gs []) with 0%Z in *. change (gtot gs []) with (@f0 A) in *.
    change (hpos gs (s_h st) []) with (s_h st) in *.
    split.
    + intros H. destruct (H1 H) as (e & ->). eauto.
    + intros H. rewrite (H2 H). unfold pop. cbn [s_max s_s s_v s_h s_out]. rewrite Hmax.
      replace (s1 - 1)%Z with (s_s st) by (subst s1; lia). rewrite (Z.max_r 0) by lia. reflexivity.
Qed.

(** Shipping a list. *)
Lemma ship_call_stuck ox oy (t : tnode) : stuck false t -> exists e, ship_call ox oy t = LPanic e.
Proof.
  intros H. pose proof (ship_ok t) as O. destruct t; try (inversion H; fail).
  destruct (O ox (oy + b_height b) false b (mk_ship 0 0 f0 f0 []) eq_refl) as [O1 _]. exact (O1 H).
Qed.
Lemma ship_call_spec ox oy k b sh gs (l : list tnode) :
  let t := TL k b sh gs l in
  ~ stuck false t ->
  ship_call ox oy t =
  LOk (overwritten false b t,
       mk_ship (nest t) 0 f0 (hpos gs f0 l) (draws ox (oy + b_height b) false b t f0 f0)).
Proof.
  intros t H. destruct (ship_ok t ox (oy + b_height b) false b (mk_ship 0 0 f0 f0 []) eq_refl) as [_ O2].
  unfold ship_call. subst t. cbn [t_height t_box]. rewrite (O2 H). unfold shipped. cbn [s_max s_s s_v s_h s_out t_glue t_nodes].
  pose proof (max_nest_pos l) as Hp.
  replace (Z.max 0 (0 + nest (TL k b sh gs l)))%Z with (nest (TL k b sh gs l)) by (rewrite nest_unfold; lia).
  reflexivity.
Qed.

End ShipFacts.
