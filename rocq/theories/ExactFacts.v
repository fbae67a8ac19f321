(** Layout in exact arithmetic. *)
From Coq Require Import ZArith Bool List String Ascii Lia QArith Qcanon Lqa.
From Verif Require Import Arith Exact OrderLaws Box Ship ShipSpec ShipFacts ShipFacts2 PackSpec PackFacts.
Import ListNotations.
Local Open Scope Z_scope.
Local Open Scope list_scope.

Notation F := xq.
Notation tnode := (@tnode exact).
Notation gset := (@gset exact).
Notation box := (@box exact).
Notation event := (@event exact).

Definition fin (x : xq) : Prop := exists q, x = Fin q.

Lemma f0_exact : @f0 exact = Fin 0.
Proof. exact xofZ_0. Qed.

Lemma zero_iff x : zero (A:=exact) x <-> x = Fin 0.
Proof.
  unfold zero. rewrite f0_exact. cbn. split; [apply xeqb_eq|]. intros ->. apply qeqb_refl.
Qed.

Lemma fold_add' (l : list xq) : forall a, fold_left xadd l a = xadd a (fold_left xadd l (Fin 0)).
Proof.
  induction l as [|x l IH]; intros a; cbn [fold_left].
  - now rewrite xadd_0_r.
  - rewrite IH, (IH (xadd (Fin 0) x)), xadd_0_l, xadd_assoc. reflexivity.
Qed.
Lemma fold_add (l : list xq) : forall a, fold_left xadd l a = xadd a (@fsum exact l).
Proof. intros a. rewrite fold_add'. unfold fsum. now rewrite f0_exact. Qed.
Lemma fsum_cons x l : @fsum exact (x :: l) = xadd x (fsum l).
Proof.
  transitivity (fold_left xadd l (xadd (Fin 0) x)).
  - unfold fsum. now rewrite f0_exact.
  - now rewrite fold_add, xadd_0_l.
Qed.
Lemma fsum_nil : @fsum exact [] = Fin 0.
Proof. exact f0_exact. Qed.
Lemma fsum_app l1 l2 : @fsum exact (l1 ++ l2) = xadd (fsum l1) (fsum l2).
Proof.
  induction l1 as [|x l IH]; cbn [app].
  - now rewrite fsum_nil, xadd_0_l.
  - rewrite !fsum_cons, IH. apply xadd_assoc.
Qed.

Lemma xadd_opp_fin q : xadd (Fin q) (Fin (- q)) = Fin 0.
Proof. cbn. f_equal. ring. Qed.
Lemma xadd_sub_fin x q : xadd (xsub x (Fin q)) (Fin q) = x.
Proof. unfold xsub. rewrite <- xadd_assoc. cbn. rewrite Qcplus_comm, Qcplus_opp_r. apply xadd_0_r. Qed.

(** ** VPack in exact arithmetic *)
Lemma vfold_height l : forall d d', vfold (A:=exact) l d = LOk d' ->
  xadd (d_h d') (d_d d') = xadd (xadd (d_h d) (d_d d)) (fsum (map extent l)).
Proof.
  induction l as [|x l IH]; intros d d' H; cbn [map].
  - inversion H; subst. rewrite fsum_nil, xadd_0_r. reflexivity.
  - cbn [vfold] in H. rewrite fsum_cons.
    destruct (vpack_dims x d) as [d1|] eqn:E; try discriminate.
    rewrite (IH _ _ H).
    assert (X : xadd (d_h d1) (d_d d1) = xadd (xadd (d_h d) (d_d d)) (extent x)).
    { destruct x as [b|c|c|b|g|sz w|k b sh gs' xs]; cbn [vpack_dims] in E; try discriminate;
        inversion E; subst; clear E; cbn [d_h d_d extent t_height t_depth t_width fadd exact];
        rewrite ?f0_exact, ?xadd_0_r, ?xadd_assoc; reflexivity. }
    rewrite X, <- xadd_assoc. reflexivity.
Qed.

(** ** Glue *)
Lemma elastics_tot gs l : gs_sign gs <> 0 ->
  elastics gs l =
  (if (gs_sign gs =? 1) then els_stretch l (gs_order gs) else els_shrink (A:=exact) l (gs_order gs)).
Proof.
  intros H. induction l as [|x l IH]; [cbn; now destruct (_ =? _)|].
  unfold elastics, els_stretch, els_shrink in *. cbn [flat_map]. rewrite IH.
  destruct x; try (cbn; destruct (gs_sign gs =? 1); reflexivity).
  cbn [elastic]. rewrite (proj2 (Z.eqb_neq _ _) H).
  destruct (gs_sign gs =? 1); destruct (Nat.eqb _ _); reflexivity.
Qed.

Lemma hpos_sum gs x0 l : hpos (A:=exact) gs x0 l =
  xadd (xadd x0 (fsum (map t_width l))) (xofZ (glue_upto gs l)).
Proof.
  induction l as [|x l IH] using rev_ind.
  - cbn [map]. rewrite fsum_nil. change (xofZ (glue_upto gs [])) with (Fin 0). now rewrite !xadd_0_r.
  - rewrite hpos_snoc, IH, map_app, fsum_app. cbn [map]. rewrite fsum_cons, fsum_nil, xadd_0_r.
    unfold right_of. cbn [fadd exact].
    destruct x as [b|c|c|b|g|sz w|k b sh gs' xs];
      try (rewrite glue_upto_other by congruence;
           set (u := xofZ _); set (S := fsum _); rewrite <- !xadd_assoc; do 2 f_equal; apply xadd_comm).
    unfold glue_size. cbn [fadd fsub fofZ exact t_width].
    set (u' := xofZ (glue_upto gs (l ++ _))). set (S := fsum _).
    unfold xofZ at 1 2. set (q := Q2Qc _).
    rewrite !xadd_assoc. f_equal. unfold xsub.
    rewrite <- !xadd_assoc. do 2 f_equal. cbn [xopp].
    rewrite xadd_comm, <- xadd_assoc, (xadd_comm (Fin (- q))), xadd_opp_fin. apply xadd_0_r.
Qed.

(** Natural packing sets no glue. *)
Lemma natural_sign g X d : fin X -> gs_sign (pack_glue (A:=exact) g (xsub (xadd (Fin 0) X) X) d) = 0.
Proof.
  intros (q & ->). unfold pack_glue. cbn [feqb exact].
  assert (E : xeqb (xsub (xadd (Fin 0) (Fin q)) (Fin q)) (@f0 exact) = true).
  { rewrite xadd_0_l. unfold xsub. cbn [xopp]. rewrite xadd_opp_fin, f0_exact. apply qeqb_refl. }
  rewrite E. reflexivity.
Qed.
Lemma natural_upto gs (l : list tnode) : gs_sign gs = 0 -> glue_upto gs l = 0.
Proof.
  intros H. assert (E : elastics gs l = []).
  { induction l as [|x l IH]; [reflexivity|]. unfold elastics in *. cbn [flat_map]. rewrite IH.
    destruct x; cbn [elastic]; try reflexivity. now rewrite H. }
  unfold glue_upto. now rewrite E.
Qed.

Lemma vpos_natural (gs : gset) (top : xq) (l : list tnode) : gs_sign gs = 0 ->
  (forall x, In x l -> is_solid x = true -> vvisible x = true \/ xadd (t_height x) (t_depth x) = Fin 0) ->
  (forall x, In x l -> forall c, x <> TChar c /\ x <> TAccent c) ->
  vpos (A:=exact) gs top l = xadd top (fsum (map extent l)).
Proof.
  intros Hg. induction l as [|x l IH] using rev_ind; intros Hs Hc.
  - cbn [map]. rewrite fsum_nil, xadd_0_r. reflexivity.
  - rewrite vpos_snoc, IH; [|intros; apply Hs; auto; apply in_app_iff; auto|intros; apply Hc; apply in_app_iff; auto].
    rewrite map_app, fsum_app. cbn [map]. rewrite fsum_cons, fsum_nil, xadd_0_r.
    set (S := fsum _).
    assert (Hin : In x (l ++ [x])) by (apply in_app_iff; right; now left).
    destruct x as [b|c|c|b|g|sz w|k b sh gs' xs]; cbn [below extent t_width t_height t_depth].
    + destruct (Hs _ Hin eq_refl) as [-> | E]; cbn [fadd exact t_height t_depth] in *; [apply eq_sym, xadd_assoc|].
      rewrite E, !xadd_0_r. destruct (vvisible _); reflexivity.
    + destruct (Hc _ Hin c). congruence.
    + destruct (Hc _ Hin c). congruence.
    + destruct (Hs _ Hin eq_refl) as [-> | E]; cbn [fadd exact t_height t_depth] in *; [apply eq_sym, xadd_assoc|].
      rewrite E, !xadd_0_r. destruct (vvisible _); reflexivity.
    + unfold glue_size. rewrite !natural_upto by assumption. cbn [fadd fsub fofZ exact].
      rewrite xofZ_0, xadd_sub_fin. symmetry; apply xadd_assoc.
    + symmetry; apply xadd_assoc.
    + destruct k.
      * destruct (Hs _ Hin eq_refl) as [-> | E]; cbn [fadd exact t_height t_depth] in *; [apply eq_sym, xadd_assoc|].
        rewrite E, !xadd_0_r. destruct (vvisible _); reflexivity.
      * destruct xs; cbn [fadd exact]; rewrite ?xadd_assoc; reflexivity.
      * destruct xs; cbn [fadd exact]; rewrite ?xadd_assoc; reflexivity.
      * destruct (Hs _ Hin eq_refl) as [-> | E]; cbn [fadd exact t_height t_depth] in *; [apply eq_sym, xadd_assoc|].
        rewrite E, !xadd_0_r. destruct (vvisible _); reflexivity.
Qed.

(** ** Translation *)
Definition move (dx dy : xq) (e : event) : event :=
  match e with
  | EGlyph x y ft s d => EGlyph (A:=exact) (xadd x dx) (xadd y dy) ft s d
  | ERect x1 y1 x2 y2 => ERect (A:=exact) (xadd x1 dx) (xadd y1 dy) (xadd x2 dx) (xadd y2 dy)
  end.

Lemma swap a b c : xadd (xadd a b) c = xadd (xadd a c) b.
Proof. rewrite <- !xadd_assoc. f_equal. apply xadd_comm. Qed.

Lemma each_move (f f' : list tnode -> tnode -> list event) dx dy l :
  Forall (fun y => forall pre, f' pre y = map (move dx dy) (f pre y)) l ->
  forall pre, each f' pre l = map (move dx dy) (each f pre l).
Proof.
  induction 1 as [|y l H _ IH]; intros; cbn [each]; [reflexivity|]. now rewrite map_app, H, IH.
Qed.

Lemma rect_move dx dy x y w h : rect (A:=exact) (xadd x dx) (xadd y dy) w h = move dx dy (rect x y w h).
Proof. unfold rect, move. cbn [fadd exact]. rewrite (swap x dx w), (swap y dy h). reflexivity. Qed.

Lemma draws_move ox oy dx dy (t : tnode) : forall vert bx x v,
  draws (A:=exact) (xadd ox dx) (xadd oy dy) vert bx t x v = map (move dx dy) (draws ox oy vert bx t x v).
Proof.
  induction t as [b|c|c|b|g|sz w|k b sh gs l IH] using tnode_ind'; intros vert bx x v; try reflexivity.
  rewrite !draws_unfold. apply each_move. eapply Forall_impl; [|exact IH]. intros y Hy pre.
  destruct vert; [unfold vdraw|unfold hdraw];
    (destruct y as [b'|c'|c'|b'|g'|sz' w'|k' b' sh' gs' xs]; try reflexivity).
  - destruct (vvisible _); [|reflexivity]. cbn [map fadd exact].
    rewrite !xadd_assoc. f_equal. apply rect_move.
  - destruct k'; try reflexivity; apply Hy.
  - cbn. unfold glyph. cbn [fadd exact]. now rewrite !xadd_assoc.
  - cbn. unfold glyph. cbn [fadd fsub exact]. unfold xsub. rewrite !xadd_assoc.
    match goal with |- [EGlyph ?a ?b _ _ _] = [EGlyph ?c ?d _ _ _] =>
      assert (Ea : a = c) by apply swap; assert (Eb : b = d) by apply swap end.
    now rewrite Ea, Eb.
  - destruct (hvisible _ _); [|reflexivity]. cbn [map fadd exact].
    rewrite !xadd_assoc. f_equal. apply rect_move.
  - destruct k'; try reflexivity; apply Hy.
Qed.

(** ** Scaling *)
Lemma shrink_exact : @shrink_factor exact = Fin (Q2Qc (7 # 10)).
Proof. unfold shrink_factor, frat. cbn. reflexivity. Qed.
Lemma grow_exact : @grow_factor exact = Fin (Q2Qc (10 # 7)).
Proof. unfold grow_factor, frat. cbn. reflexivity. Qed.
