(** C87: formulas without stacked parts in float64: widths and positions up to
    rounding, heights and depths exactly. *)
From Coq Require Import ZArith String Ascii List Bool Reals Lia Lra Psatz.
From Flocq Require Import Core.Core Relative Plus_error IEEE754.BinarySingleNaN IEEE754.PrimFloat.
From Verif Require Import Utf8 Token Ast Parser Symbols TreeSpec Arith OrderLaws Box Ship ShipSpec ShipFacts ShipFacts2 PackSpec PackFacts PropPack PropShip Float64Facts
  Mtex MtexSpec MtexFacts ReadFacts PropRead PropError.
From Coq Require Import Floats Lra.
Import ListNotations.
Local Open Scope string_scope.
Local Open Scope list_scope.

(** ** Vocabulary *)
(** The parts of a row, however its rows are nested: letters and gaps, in order. *)
Inductive part : Type := Letter (c : @tchar float64) | Gap (w : float).
Fixpoint parts (t : @Box.tnode float64) : list part :=
  match t with
  | TChar c => [Letter c]
  | TKern _ w => [Gap w]
  | TL _ _ _ _ l => flat_map parts l
  | _ => []
  end.
Definition part_width (p : part) : float := match p with Letter c => c_width c | Gap w => w end.
Definition widths (l : list part) : list float := map part_width l.
Definition letters (l : list part) : list (@tchar float64) := flat_map (fun p => match p with Letter c => [c] | Gap _ => [] end) l.
(** Every letter, with what stands before it. *)
Fixpoint placed (before l : list part) : list (@tchar float64 * list part) :=
  match l with
  | [] => []
  | Letter c :: l' => (c, before) :: placed (before ++ [Letter c]) l'
  | Gap w :: l' => placed (before ++ [Gap w]) l'
  end.
(** Macros that set something above something else or draw lines. *)
Definition stacking : list string := ["\frac"; "\dfrac"; "\tfrac"; "\binom"; "\sqrt"; "\overline"].
(** Expressions without them (arguments of other macros are not drawn). *)
Fixpoint level (n : node) : Prop :=
  match n with
  | NMacro (Some (_, name)) _ => ~ In name stacking
  | NMath _ _ l _ => fold_right (fun x p => level x /\ p) True l
  | NList l => fold_right (fun x p => level x /\ p) True l
  | _ => True
  end.
Local Open Scope R_scope.
(** The largest of the numbers and 0. *)
Definition greatest (l : list float) : R := fold_right Rmax 0 (map (fun x => R_of x) l).

(** ** Nested sums *)
Inductive sums : float -> list float -> Prop :=
  | sums_0 : sums 0%float []
  | sums_1 x : sums x [x]
  | sums_add a b la lb : sums a la -> sums b lb -> sums (a + b)%float (la ++ lb).
Lemma add_zero x y : finite (x + y)%float -> R_of x = 0 \/ R_of y = 0 -> R_of (x + y)%float = R_of x + R_of y.
Proof.
  intros F Z. pose proof (add_finite _ _ F) as [Fx Fy]. rewrite add_equiv in *.
  pose proof (Bplus_correct FloatOps.prec FloatOps.emax Hprec Hmax mode_NE (Prim2B x) (Prim2B y) Fx Fy) as B.
  assert (GF : generic_format radix2 (SpecFloat.fexp FloatOps.prec FloatOps.emax) (R_of x + R_of y)).
  { destruct Z as [-> | ->]; rewrite ?Rplus_0_l, ?Rplus_0_r; apply generic_format_B2R. }
  rewrite round_generic in B; [|apply valid_rnd_N|exact GF].
  rewrite Rlt_bool_true in B; [apply B|]. destruct Z as [E|E]; rewrite E, ?Rplus_0_l, ?Rplus_0_r; apply abs_B2R_lt_emax.
Qed.
Lemma gamma_mono m n : (m <= n)%nat -> gamma m <= gamma n.
Proof. intros L. unfold gamma. apply Rplus_le_compat_r. apply Rle_pow; [pose proof u_pos; lra|exact L]. Qed.
Lemma sums_error x l : sums x l -> finite x ->
  Rabs (R_of x - total l) <= gamma (List.length l) * mass l /\ (l = [] -> R_of x = 0).
Proof.
  induction 1 as [|x|a b la lb Ha IHa Hb IHb]; intros F.
  - split; [|intros _; apply zero_int]. assert (Z0 : R_of 0%float = 0) by apply zero_int. rewrite Z0. cbn. rewrite Rminus_0_r, Rabs_R0. lra.
  - split; [|discriminate]. unfold total, mass. cbn [map fold_right]. rewrite !Rplus_0_r.
    replace (R_of x - R_of x) with 0 by ring. rewrite Rabs_R0. apply Rmult_le_pos; [apply gamma_pos|apply Rabs_pos].
  - destruct (add_finite _ _ F) as [Fa Fb]. destruct (IHa Fa) as [Ea Za]. destruct (IHb Fb) as [Eb Zb].
    rewrite total_app, mass_app, app_length. pose proof (mass_pos la) as MA. pose proof (mass_pos lb) as MB.
    assert (N0 : la = [] -> R_of (a + b)%float = R_of a + R_of b) by (intros E; apply add_zero; [exact F|left; auto]).
    assert (N1 : lb = [] -> R_of (a + b)%float = R_of a + R_of b) by (intros E; apply add_zero; [exact F|right; auto]).
    assert (X : (la = [] \/ lb = []) \/ (0 < List.length la /\ 0 < List.length lb)%nat).
    { destruct la; [auto|]. destruct lb; [auto|]. right. cbn. lia. }
    destruct X as [X|[La Lb]].
    + assert (E : R_of (a + b)%float = R_of a + R_of b) by tauto. rewrite E. split.
      * replace (R_of a + R_of b - (total la + total lb)) with ((R_of a - total la) + (R_of b - total lb)) by ring.
        eapply Rle_trans; [apply Rabs_triang|].
        pose proof (gamma_mono (List.length la) (List.length la + List.length lb) ltac:(lia)) as Ga.
        pose proof (gamma_mono (List.length lb) (List.length la + List.length lb) ltac:(lia)) as Gb.
        set (g := gamma (List.length la + List.length lb)) in *. rewrite Rmult_plus_distr_l.
        apply Rplus_le_compat; (eapply Rle_trans; [eassumption|]); apply Rmult_le_compat_r; assumption.
      * intros Z. apply app_eq_nil in Z as [Z1 Z2]. rewrite (Za Z1), (Zb Z2). lra.
    + split; [|intros Z; apply app_eq_nil in Z as [Z1 _]; subst la; cbn in La; lia].
      set (n := (Nat.max (List.length la) (List.length lb))%nat).
      pose proof (gamma_mono (List.length la) n ltac:(lia)) as Ga. pose proof (gamma_mono (List.length lb) n ltac:(lia)) as Gb.
      pose proof (gamma_mono (S n) (List.length la + List.length lb) ltac:(lia)) as Gn.
      assert (G : 1 + gamma (S n) = (1 + u) * (1 + gamma n)) by (unfold gamma; cbn [pow]; ring).
      pose proof (add_error _ _ F) as AE. pose proof u_pos as UP. pose proof (gamma_pos n) as GP.
      set (g := gamma n) in *. set (g' := gamma (S n)) in *. set (gg := gamma (List.length la + List.length lb)) in *.
      assert (Ea' : Rabs (R_of a - total la) <= g * mass la) by (eapply Rle_trans; [exact Ea|]; apply Rmult_le_compat_r; assumption).
      assert (Eb' : Rabs (R_of b - total lb) <= g * mass lb) by (eapply Rle_trans; [exact Eb|]; apply Rmult_le_compat_r; assumption).
      pose proof (total_mass la) as TA. pose proof (total_mass lb) as TB.
      assert (Aa : Rabs (R_of a) <= (1 + g) * mass la).
      { replace (R_of a) with ((R_of a - total la) + total la) by ring. eapply Rle_trans; [apply Rabs_triang|]. lra. }
      assert (Ab : Rabs (R_of b) <= (1 + g) * mass lb).
      { replace (R_of b) with ((R_of b - total lb) + total lb) by ring. eapply Rle_trans; [apply Rabs_triang|]. lra. }
      pose proof (Rabs_triang (R_of a) (R_of b)) as TR.
      replace (R_of (a + b)%float - (total la + total lb)) with
        ((R_of (a + b)%float - (R_of a + R_of b)) + ((R_of a - total la) + (R_of b - total lb))) by ring.
      eapply Rle_trans; [apply Rabs_triang|]. eapply Rle_trans; [apply Rplus_le_compat_l, Rabs_triang|].
      assert (A1 : Rabs (R_of (a + b)%float - (R_of a + R_of b)) <= u * ((1 + g) * mass la + (1 + g) * mass lb)).
      { eapply Rle_trans; [exact AE|]. apply Rmult_le_compat_l; lra. }
      assert (A2 : gg * (mass la + mass lb) >= ((1 + u) * (1 + g) - 1) * (mass la + mass lb)).
      { apply Rle_ge. apply Rmult_le_compat_r; lra. }
      nra.
Qed.
Lemma sums_about x l : sums x l -> (Z.of_nat (List.length l) <= 2 ^ 52)%Z -> finite x -> about x l.
Proof.
  intros H N F. unfold about. eapply Rle_trans; [apply (sums_error x l H F)|]. apply Rmult_le_compat_r; [apply mass_pos|]. now apply gamma_bound.
Qed.
(** Two numbers far from the ends of the range can be added. *)
Lemma add_in_range x y : finite x -> finite y -> Rabs (R_of x) + Rabs (R_of y) <= 2 ^ 1023 -> finite (x + y)%float.
Proof.
  intros Fx Fy H. rewrite add_equiv. pose proof (Bplus_correct FloatOps.prec FloatOps.emax Hprec Hmax mode_NE (Prim2B x) (Prim2B y) Fx Fy) as B.
  rewrite Rlt_bool_true in B; [apply B|].
  assert (P : 2 ^ 1023 = bpow radix2 1023) by (rewrite bpow_powerRZ; change (IZR radix2) with 2; now rewrite pow_powerRZ).
  assert (L : Rabs (R_of x + R_of y) <= bpow radix2 1023) by (rewrite <- P; eapply Rle_trans; [apply Rabs_triang|exact H]).
  apply Rle_lt_trans with (bpow radix2 1023); [|apply bpow_lt; reflexivity].
  apply abs_round_le_generic; [apply FLT_exp_valid; reflexivity|apply valid_rnd_N| |exact L].
  apply generic_format_bpow. cbv. discriminate.
Qed.
Lemma sums_in_range x l : sums x l -> (Z.of_nat (List.length l) <= 2 ^ 52)%Z -> Forall (fun w => finite w) l -> mass l <= 2 ^ 1022 -> finite x.
Proof.
  induction 1 as [|x|a b la lb Ha IHa Hb IHb]; intros N F M.
  - apply zero_int.
  - now inversion F.
  - rewrite app_length in N. rewrite mass_app in M. apply Forall_app in F as [Fa Fb].
    pose proof (mass_pos la). pose proof (mass_pos lb).
    assert (Xa : finite a) by (apply IHa; [lia|exact Fa|lra]). assert (Xb : finite b) by (apply IHb; [lia|exact Fb|lra]).
    assert (B : forall x l, sums x l -> (Z.of_nat (List.length l) <= 2 ^ 52)%Z -> finite x -> Rabs (R_of x) <= 2 * mass l).
    { intros x l H1 N1 F1. pose proof (sums_about x l H1 N1 F1) as A. unfold about in A. pose proof (total_mass l). pose proof (mass_pos l).
      assert (I : INR (List.length l) * / 2 ^ 52 <= 1).
      { rewrite INR_IZR_INZ. assert (L : IZR (Z.of_nat (List.length l)) <= 2 ^ 52) by (rewrite p52; now apply IZR_le).
        assert (P : 0 < 2 ^ 52) by (apply pow_lt; lra). apply (Rmult_le_reg_r (2 ^ 52)); [exact P|]. rewrite Rmult_assoc, Rinv_l; lra. }
      assert (J : INR (List.length l) * / 2 ^ 52 * mass l <= 1 * mass l) by (apply Rmult_le_compat_r; assumption).
      replace (R_of x) with ((R_of x - total l) + total l) by ring. eapply Rle_trans; [apply Rabs_triang|]. lra. }
    pose proof (B a la Ha ltac:(lia) Xa). pose proof (B b lb Hb ltac:(lia) Xb).
    apply add_in_range; [exact Xa|exact Xb|]. replace (2 ^ 1023) with (2 * 2 ^ 1022) by reflexivity. lra.
Qed.
Lemma sums_fold (l : list float) (ls : list (list float)) : Forall2 sums l ls -> forall a la, sums a la ->
  sums (fold_left PrimFloat.add l a) (la ++ List.concat ls).
Proof.
  induction 1 as [|x y l ls Hx _ IH]; intros a la Ha; cbn [fold_left List.concat]; [now rewrite app_nil_r|].
  rewrite app_assoc. apply IH. now apply sums_add.
Qed.

(** ** Natural rows *)
Fixpoint row_tree (t : @Box.tnode float64) : Prop :=
  match t with
  | TChar _ | TKern _ _ => True
  | TL k b sh gs l => TL k b sh gs l = hpack (A := float64) 0%float true (list_of KHList l) /\ fold_right (fun x p => row_tree x /\ p) True l
  | _ => False
  end.
Definition row_trees (l : list (@Box.tnode float64)) : Prop := fold_right (fun x p => row_tree x /\ p) True l.
Lemma row_trees_forall l : row_trees l <-> Forall row_tree l.
Proof. induction l as [|x l IH]; cbn; split; intros H; auto; [constructor; tauto|inversion H; tauto]. Qed.
Lemma row_list k b sh gs l : row_tree (TL k b sh gs l) <-> TL k b sh gs l = hpack (A := float64) 0%float true (list_of KHList l) /\ row_trees l.
Proof. reflexivity. Qed.
Lemma widths_app a b : widths (a ++ b) = widths a ++ widths b. Proof. apply map_app. Qed.
Lemma row_sums t : row_tree t -> sums (t_width t) (widths (parts t)).
Proof.
  induction t as [b|c|c|b|g|sz w|k b sh gs l IH] using tnode_ind'; cbn [row_tree]; intros R; try contradiction.
  - apply sums_1.
  - apply sums_1.
  - apply row_list in R as [E R]. rewrite E.
    assert (W : t_width (hpack (A := float64) 0%float true (list_of KHList l)) = (0 + fold_left PrimFloat.add (map t_width l) 0)%float)
      by exact (proj1 (proj2 (C23_hpack_width float64 0%float _ _ _ l))).
    rewrite W. change (sums (0 + fold_left PrimFloat.add (map t_width l) 0)%float ([] ++ widths (flat_map parts l))).
    apply sums_add; [apply sums_0|].
    assert (E2 : widths (flat_map parts l) = [] ++ List.concat (map (fun x => widths (parts x)) l)).
    { clear. cbn [app]. induction l as [|x l IH]; [reflexivity|]. cbn [flat_map map List.concat]. now rewrite widths_app, IH. }
    rewrite E2. apply sums_fold; [|apply sums_0].
    clear - IH R. induction l as [|x l IHl]; cbn [map]; constructor; inversion IH; subst; destruct R as [R1 R2]; auto.
Qed.

(** ** What typesetting builds *)
Section Rows.
Context {S : Type}.
Variable range : Symbols.gset -> list string.
Variable be : @backend float64 S.
Variable parse_float : string -> option float.
Variable expr : string.
Notation go := (Mtex.go range be parse_float expr).

Lemma kern_row l : forall s l' s', row_trees l -> kern_list be l s = LOk (l', s') -> row_trees l'.
Proof.
  induction l as [|x l IH]; intros s l' s' R E; cbn [kern_list] in E.
  - apply ret_ok in E as [-> _]. exact I.
  - destruct R as [R1 R2]. apply bind_ok in E as (d & s1 & _ & E). apply bind_ok in E as (r & s2 & E2 & E). apply ret_ok in E as [-> _].
    apply (IH _ _ _ R2) in E2. destruct (negb _); repeat split; assumption.
Qed.
Lemma hlist_row l s t s' : row_trees l -> hlist_of be l true s = LOk (t, s') -> row_tree t.
Proof.
  intros R E. unfold hlist_of in E. apply bind_ok in E as (l' & s1 & E1 & E). apply ret_ok in E as [-> _].
  apply (kern_row _ _ _ _ R) in E1. split; [reflexivity|exact E1].
Qed.
Lemma space_row st p s t s' : make_space be st p s = LOk (t, s') -> row_tree t.
Proof. intros E. unfold make_space in E. apply bind_ok in E as (m & s1 & _ & E). apply ret_ok in E as [-> _]. exact I. Qed.
Lemma symbol_row sym pos st m s t s' : handle_symbol range be expr sym pos st m s = LOk (t, s') -> row_tree t.
Proof.
  intros E. unfold handle_symbol in E. apply bind_ok in E as (c & s1 & _ & E). destruct (is_spaced range sym).
  - apply bind_ok in E as (bf & s2 & _ & E). destruct (_ && _).
    + apply ret_ok in E as [-> _]. exact I.
    + apply bind_ok in E as (k1 & s3 & K1 & E). apply bind_ok in E as (k2 & s4 & K2 & E).
      apply space_row in K1. apply space_row in K2. eapply hlist_row; [|exact E]. repeat split; assumption.
  - destruct (set_has _ sym).
    + destruct (String.eqb sym "."); [|discriminate E].
      apply bind_ok in E as (af & s2 & _ & E). cbv zeta in E. destruct (_ && _).
      * apply ret_ok in E as [-> _]. exact I.
      * apply bind_ok in E as (k1 & s3 & K1 & E). apply space_row in K1. eapply hlist_row; [|exact E]. repeat split; assumption.
    + apply ret_ok in E as [-> _]. exact I.
Qed.
Lemma chars_row txt st m s ns s' : new_chars be txt st m s = LOk (ns, s') -> row_trees ns.
Proof.
  unfold new_chars. revert s ns s'. induction (rune_strings txt) as [|x l IH]; intros s ns s' E; cbn [mmap] in E.
  - apply ret_ok in E as [-> _]. exact I.
  - apply bind_ok in E as (c & s1 & E1 & E). apply bind_ok in E as (r & s2 & E2 & E). apply ret_ok in E as [-> _].
    apply bind_ok in E1 as (c0 & s3 & E3 & E1). apply ret_ok in E1 as [-> _]. split; [exact I|]. eapply IH. exact E2.
Qed.
Lemma handle_space_row name st s t s' : handle_space be name st s = LOk (t, s') -> row_tree t.
Proof. unfold handle_space. destruct (assoc name space_width) as [[n d]|]; [apply space_row|intros E; discriminate E]. Qed.
Lemma stacking_handler name h : handler range name = LOk (Some h) ->
  match h with HFrac | HDFrac | HTFrac | HBinom | HSqrt | HOverline => In name stacking | _ => True end.
Proof.
  unfold handler. set (sp := match assoc name space_width with Some _ => true | None => false end). clearbody sp. intros E.
  destruct sp; [injection E as <-; exact I|]. destruct (is_spaced range name || set_has _ name); [injection E as <-; exact I|].
  destruct (String.eqb name "\hspace"); [injection E as <-; exact I|].
  destruct name as [|a tl]; [discriminate E|]. remember (String a tl) as nm eqn:NM. destruct (set_has _ tl); [injection E as <-; exact I|]. clear a tl NM.
  destruct (String.eqb nm "\frac") eqn:B1; [injection E as <-; apply String.eqb_eq in B1; left; auto|].
  destruct (String.eqb nm "\dfrac") eqn:B2; [injection E as <-; apply String.eqb_eq in B2; right; left; auto|].
  destruct (String.eqb nm "\tfrac") eqn:B3; [injection E as <-; apply String.eqb_eq in B3; right; right; left; auto|].
  destruct (String.eqb nm "\binom") eqn:B4; [injection E as <-; apply String.eqb_eq in B4; do 3 right; left; auto|].
  destruct (String.eqb nm "\sqrt") eqn:B5; [injection E as <-; apply String.eqb_eq in B5; do 4 right; left; auto|].
  destruct (String.eqb nm "\overline") eqn:B6; [injection E as <-; apply String.eqb_eq in B6; do 5 right; left; auto|].
  destruct (has_macro nm); [injection E as <-; exact I|discriminate E].
Qed.

Definition keeps (f : @visitor float64 -> Box.M S (@visitor float64)) : Prop := forall v s v' s',
  row_trees (v_nodes v) -> f v s = LOk (v', s') -> row_trees (v_nodes v').
Lemma keep_fold {X} (f : X -> visitor -> Box.M S visitor) l : (forall x, In x l -> keeps (f x)) -> keeps (mfold f l).
Proof.
  induction l as [|x l IH]; intros H v s v' s' R E; cbn [mfold] in E.
  - apply ret_ok in E as [-> _]. exact R.
  - apply bind_ok in E as (v1 & s1 & E1 & E). eapply IH; [intros; apply H; now right| |exact E]. eapply H; [now left|exact R|exact E1].
Qed.
Lemma keep_push t v : row_trees (v_nodes v) -> row_tree t -> row_trees (v_nodes (push t v)).
Proof. intros R T. cbn [push v_nodes]. rewrite row_trees_forall in *. apply Forall_app. split; [exact R|]. repeat constructor. exact T. Qed.

Lemma go_row n : level n -> forall w, keeps (go w n).
Proof.
  induction n using node_ind'; cbn [level]; intros L w v s0 v' s' R E;
    try (destruct w; cbn [Mtex.go] in E; discriminate E).
  - destruct w; cbn [Mtex.go] in E; [discriminate E|]. apply ret_ok in E as [-> _]. exact R.
  - destruct w; cbn [Mtex.go] in E; [|apply ret_ok in E as [-> _]; exact R].
    eapply keep_fold; [|exact R|exact E]. clear - H L. induction H as [|x l Hx _ IH]; [intros y []|]. destruct L as [L1 L2]. intros y [->|I]; [exact (Hx L1 _)|exact (IH L2 y I)].
  - destruct nm as [[p name]|]; cbn [Mtex.go] in E; [|discriminate E].
    apply bind_ok in E as (h & s1 & EH & E). apply mlift_ok in EH. destruct h as [h|]; [|discriminate E].
    apply stacking_handler in EH.
    apply bind_ok in E as (t & s2 & E2 & E). apply ret_ok in E as [-> _]. apply keep_push; [exact R|].
    destruct h; try (destruct (L EH)); cbn [Mtex.handle_macro] in E2.
    + now apply handle_space_row in E2.
    + now apply symbol_row in E2.
    + unfold handle_custom_space in E2. destruct l as [|[] l]; try discriminate E2.
      match type of E2 with context [match ?x with [] => _ | _ => _ end] => destruct x as [|[] ?]; try discriminate E2 end.
      match type of E2 with context [parse_float ?x] => destruct (parse_float x) as [q|]; [|discriminate E2] end.
      now apply space_row in E2.
    + unfold handle_function in E2. apply bind_ok in E2 as (ts & s3 & E5 & E2). apply chars_row in E5. eapply hlist_row; [exact E5|exact E2].
  - cbn [Mtex.go] in E. apply bind_ok in E as (v1 & s1 & E1 & E). apply ret_ok in E as [-> _]. cbn [v_nodes] in *.
    refine (keep_fold (go false) l _ (mk_visitor (v_nodes v) _ _) _ _ _ R E1). clear - H L. induction H as [|x l Hx _ IH]; [intros y []|]. destruct L as [L1 L2]. intros y [->|I]; [exact (Hx L1 _)|exact (IH L2 y I)].
  - cbn [Mtex.go] in E. apply bind_ok in E as (ts & s1 & E1 & E). apply bind_ok in E as (t & s2 & E2 & E). apply ret_ok in E as [-> _].
    apply keep_push; [exact R|]. apply chars_row in E1. eapply hlist_row; [exact E1|exact E2].
  - cbn [Mtex.go] in E. eapply keep_fold; [|exact R|exact E]. intros x _ v0 s1 v1 s2 R0 E0. cbv beta in E0.
    apply bind_ok in E0 as (t & s3 & E1 & E0). apply ret_ok in E0 as [-> _]. apply keep_push; [exact R0|]. now apply symbol_row in E1.
  - cbn [Mtex.go] in E. destruct (v_math v).
    + apply bind_ok in E as (h & s1 & _ & E). destruct h as [h|]; [|discriminate E].
      apply bind_ok in E as (t & s2 & E2 & E). apply ret_ok in E as [-> _]. apply keep_push; [exact R|].
      destruct h; cbn [handle_sym] in E2; try discriminate E2; [now apply handle_space_row in E2|now apply symbol_row in E2].
    + apply bind_ok in E as (c & s2 & _ & E). apply ret_ok in E as [-> _]. apply keep_push; [exact R|exact I].
Qed.
Lemma typeset_row l size dpi s t s' : level (NList l) -> typeset range be parse_float expr l size dpi s = LOk (t, s') ->
  exists l', t = hpack (A := float64) 0%float true (list_of KHList l') /\ row_trees l'.
Proof.
  intros L E. unfold typeset in E. apply bind_ok in E as (v & s1 & E1 & E). apply (go_row _ L true) in E1; [|exact I].
  unfold hlist_of in E. apply bind_ok in E as (l' & s2 & E2 & E). apply ret_ok in E as [-> _]. exists l'. split; [reflexivity|].
  eapply kern_row; [exact E1|exact E2].
Qed.
End Rows.

(** ** Heights and depths *)
Lemma max_finite a b : finite a -> finite b -> finite (Float64.max a b) /\ R_of (Float64.max a b) = Rmax (R_of a) (R_of b).
Proof.
  intros Fa Fb.
  assert (Na : num (A := float64) a) by (apply float_num; destruct (Prim2B a); try discriminate Fa; reflexivity).
  assert (Nb : num (A := float64) b) by (apply float_num; destruct (Prim2B b); try discriminate Fb; reflexivity).
  destruct (float_max_cases a b Na Nb) as [[-> H]|[-> H]]; (split; [assumption|]);
    rewrite ltb_equiv, Bltb_correct in H by assumption; idtac.
  - unfold Rlt_bool in H. destruct (Rcompare_spec (R_of a) (R_of b)); try discriminate H; rewrite Rmax_left; lra.
  - unfold Rlt_bool in H. destruct (Rcompare_spec (R_of b) (R_of a)); try discriminate H; rewrite Rmax_right; lra.
Qed.
Lemma plus_zero x : finite x -> finite (x + 0)%float /\ R_of (x + 0)%float = R_of x.
Proof.
  intros F. rewrite add_equiv.
  assert (Z0 : finite 0%float /\ R_of 0%float = 0) by (split; apply zero_int).
  pose proof (Bplus_correct FloatOps.prec FloatOps.emax Hprec Hmax mode_NE (Prim2B x) (Prim2B 0) F (proj1 Z0)) as B.
  rewrite (proj2 Z0), Rplus_0_r in B. rewrite round_generic in B; [|apply valid_rnd_N|apply generic_format_B2R].
  rewrite Rlt_bool_true in B by apply abs_B2R_lt_emax. tauto.
Qed.
Lemma minus_zero x : finite x -> finite (x - 0)%float /\ R_of (x - 0)%float = R_of x.
Proof.
  intros F. rewrite sub_equiv.
  assert (Z0 : finite 0%float /\ R_of 0%float = 0) by (split; apply zero_int).
  pose proof (Bminus_correct FloatOps.prec FloatOps.emax Hprec Hmax mode_NE (Prim2B x) (Prim2B 0) F (proj1 Z0)) as B.
  rewrite (proj2 Z0), Rminus_0_r in B. rewrite round_generic in B; [|apply valid_rnd_N|apply generic_format_B2R].
  rewrite Rlt_bool_true in B by apply abs_B2R_lt_emax. tauto.
Qed.
Lemma greatest_app a b : greatest (a ++ b) = Rmax (greatest a) (greatest b).
Proof.
  unfold greatest. rewrite map_app. induction (map _ a) as [|x l IH]; cbn [app fold_right].
  - symmetry. apply Rmax_right. induction (map _ b); cbn; [lra|]. eapply Rle_trans; [exact IHl|apply Rmax_r].
  - rewrite IH. apply Rmax_assoc.
Qed.
Lemma greatest_ge l : 0 <= greatest l.
Proof. unfold greatest. induction (map _ l); cbn; [lra|]. eapply Rle_trans; [exact IHl0|apply Rmax_r]. Qed.
Lemma finite_inf x : finite x -> finf float64 x = false.
Proof.
  intros F. change (finf float64 x) with (PrimFloat.is_infinity x). unfold PrimFloat.is_infinity. rewrite eqb_equiv, abs_equiv.
  change (Prim2B infinity) with (B754_infinity false : binary_float FloatOps.prec FloatOps.emax).
  destruct (Prim2B x); try discriminate F; reflexivity.
Qed.
Lemma letters_app a b : letters (a ++ b) = letters a ++ letters b.
Proof. unfold letters. apply flat_map_app. Qed.
Definition heights (l : list part) : list float := map c_height (letters l).
Definition depths (l : list part) : list float := map c_depth (letters l).
Definition tame (l : list part) : Prop := forall c, In c (letters l) -> finite (c_height c) /\ finite (c_depth c).
Lemma tame_app a b : tame (a ++ b) -> tame a /\ tame b.
Proof. unfold tame. rewrite letters_app. intros H. split; intros c I; apply H; apply in_app_iff; auto. Qed.
Definition ext_ok (h d : float) (l : list part) : Prop :=
  (finite h /\ R_of h = greatest (heights l)) /\ (finite d /\ R_of d = greatest (depths l)).
Lemma zero_ok : finite (@f0 float64) /\ R_of (@f0 float64) = 0.
Proof. split; apply zero_int. Qed.
Lemma row_fold l : Forall (fun t => row_tree t -> tame (parts t) -> match t with TL _ b _ _ _ => ext_ok (b_height b) (b_depth b) (parts t) | _ => True end) l ->
  row_trees l -> tame (flat_map parts l) -> forall (d : @dims float64) pre, ext_ok (d_h d) (d_d d) pre ->
  let d' := fold_left (fun d x => hpack_dims x d) l d in ext_ok (d_h d') (d_d d') (pre ++ flat_map parts l).
Proof.
  induction 1 as [|x l Hx _ IH]; intros R T d pre E; cbn [fold_left flat_map]; [now rewrite app_nil_r|].
  cbn [flat_map] in T. apply tame_app in T as [T1 T2]. destruct R as [R1 R2]. rewrite app_assoc. apply IH; [exact R2|exact T2|].
  specialize (Hx R1 T1). destruct E as [[Fh Eh] [Fd Ed]].
  assert (HM : forall h d0, finite h -> finite d0 -> R_of h = Rmax 0 (greatest (heights (parts x))) \/ Rmax 0 (R_of h) = greatest (heights (parts x)) ->
    R_of d0 = Rmax 0 (greatest (depths (parts x))) \/ Rmax 0 (R_of d0) = greatest (depths (parts x)) ->
    ext_ok (Float64.max (d_h d) h) (Float64.max (d_d d) d0) (pre ++ parts x)).
  { intros h d0 F1 F2 E1 E2. unfold ext_ok, heights, depths. rewrite letters_app, !map_app, !greatest_app.
    destruct (max_finite _ _ Fh F1) as [A1 A2]. destruct (max_finite _ _ Fd F2) as [B1 B2].
    repeat split; [exact A1| |exact B1|]; rewrite ?A2, ?B2, ?Eh, ?Ed.
    - pose proof (greatest_ge (heights pre)) as G1. pose proof (greatest_ge (heights (parts x))) as G2. fold (heights pre) (heights (parts x)).
      destruct E1 as [E1|E1]; [rewrite E1, (Rmax_right 0) by exact G2; reflexivity|]. rewrite <- E1, Rmax_assoc, (Rmax_left _ 0) by exact G1. reflexivity.
    - pose proof (greatest_ge (depths pre)) as G1. pose proof (greatest_ge (depths (parts x))) as G2. fold (depths pre) (depths (parts x)).
      destruct E2 as [E2|E2]; [rewrite E2, (Rmax_right 0) by exact G2; reflexivity|]. rewrite <- E2, Rmax_assoc, (Rmax_left _ 0) by exact G1. reflexivity. }
  destruct x as [b|c|c|b|g|sz w|k b sh gs l1]; try exact (False_ind _ R1).
  - cbn [hpack_dims d_h d_d]. destruct (T1 c (or_introl eq_refl)) as [F1 F2].
    apply HM; [exact F1|exact F2|right|right]; unfold heights, depths, greatest; cbn; apply Rmax_comm.
  - cbn [hpack_dims d_h d_d parts]. unfold ext_ok, heights, depths. rewrite letters_app. cbn [letters flat_map app]. rewrite app_nil_r. tauto.
  - apply row_list in R1 as [ET _].
    assert (SH : sh = 0%float) by (change sh with (t_shift (TL k b sh gs l1)); rewrite ET; reflexivity). clear ET. subst sh.
    destruct Hx as [[Ha Hb] [Hc Hd]]. cbn [hpack_dims]. rewrite (finite_inf _ Ha), (finite_inf _ Hc). cbn [orb d_h d_d].
    destruct (minus_zero _ Ha) as [M1 M2]. destruct (plus_zero _ Hc) as [P1 P2].
    apply HM; [exact M1|exact P1|left|left].
    + change (R_of (b_height b - 0)%float = Rmax 0 (greatest (heights (parts (TL k b 0%float gs l1))))). rewrite M2, Hb. symmetry. apply Rmax_right, greatest_ge.
    + change (R_of (b_depth b + 0)%float = Rmax 0 (greatest (depths (parts (TL k b 0%float gs l1))))). rewrite P2, Hd. symmetry. apply Rmax_right, greatest_ge.
Qed.
Lemma nil_ok : ext_ok (@f0 float64) (@f0 float64) [].
Proof. unfold ext_ok, greatest. cbn. repeat split; apply zero_int. Qed.
Lemma row_extent t : row_tree t -> tame (parts t) -> match t with TL _ b _ _ _ => ext_ok (b_height b) (b_depth b) (parts t) | _ => True end.
Proof.
  induction t as [b|c|c|b|g|sz w|k b sh gs l IH] using tnode_ind'; intros R T; try exact I.
  apply row_list in R as [ET R].
  pose proof (row_fold l IH R T dims0 [] nil_ok) as E.
  replace (b_height b) with (d_h (fold_left (fun d x => hpack_dims x d) l (@dims0 float64)))
    by (change (b_height b) with (t_height (TL k b sh gs l)); rewrite ET; reflexivity).
  replace (b_depth b) with (d_d (fold_left (fun d x => hpack_dims x d) l (@dims0 float64)))
    by (change (b_depth b) with (t_depth (TL k b sh gs l)); rewrite ET; reflexivity).
  exact E.
Qed.

(** ** Positions *)
(** The call that draws a letter standing after [before]. *)
Definition drawn (ox y : float) (e : @event float64) (p : @tchar float64 * list part) : Prop :=
  exists x, e = EGlyph (x + ox)%float y (c_font (fst p)) (c_sym (fst p)) (c_dpi (fst p)) /\ sums x (widths (snd p)).
Lemma placed_app before a b : placed before (a ++ b) = placed before a ++ placed (before ++ a) b.
Proof.
  revert before. induction a as [|[c|w] a IH]; intros before; cbn [app placed]; [now rewrite app_nil_r| |];
    rewrite IH, <- app_assoc; reflexivity.
Qed.
Lemma no_glue gs pre (x : @Box.tnode float64) h : row_tree x -> right_of gs pre x h = (h + t_width x)%float.
Proof. intros R. destruct x; try exact (False_ind _ R); reflexivity. Qed.
Lemma row_draws ox oy t : row_tree t -> match t with TL _ b _ _ _ => forall x before, sums x (widths before) ->
  Forall2 (drawn ox (0 + oy)%float) (draws (A := float64) ox oy false b t x 0%float) (placed before (parts t)) | _ => True end.
Proof.
  induction t as [b|c|c|b|g|sz w|k b sh gs l IH] using tnode_ind'; intros R; try exact I.
  apply row_list in R as [_ R]. intros x before SX. rewrite draws_unfold. cbn [parts].
  assert (SH : sums (hpos gs x []) (widths (before ++ flat_map parts []))) by (cbn [flat_map]; rewrite app_nil_r; exact SX).
  assert (E0 : before = before ++ flat_map parts (@nil (@Box.tnode float64))) by (cbn [flat_map]; now rewrite app_nil_r).
  rewrite E0 at 1. clear E0. revert SH. generalize (@nil (@Box.tnode float64)) as pre. revert R.
  induction IH as [|y l Hy _ IHl]; intros R pre SH; cbn [each flat_map placed]; [constructor|].
  destruct R as [R1 R2]. rewrite placed_app. apply Forall2_app.
  - destruct y as [b1|c|c|b1|g|sz w|k1 b1 sh1 gs1 l1]; try exact (False_ind _ R1); cbn [hdraw parts placed].
    + repeat constructor. exists (hpos gs x pre). split; [reflexivity|exact SH].
    + constructor.
    + specialize (Hy R1). apply row_list in R1 as [ET _].
      assert (K : k1 = KHList) by (change k1 with (match TL k1 b1 sh1 gs1 l1 with TL k _ _ _ _ => k | _ => k1 end); rewrite ET; reflexivity).
      assert (S0 : sh1 = 0%float) by (change sh1 with (t_shift (TL k1 b1 sh1 gs1 l1)); rewrite ET; reflexivity). clear ET. subst k1 sh1.
      change (fadd float64 0%float 0%float) with 0%float || idtac.
      exact (Hy _ _ SH).
  - replace ((before ++ flat_map parts pre) ++ parts y) with (before ++ flat_map parts (pre ++ [y]))
      by (rewrite flat_map_app; cbn [flat_map]; now rewrite app_nil_r, app_assoc).
    apply IHl; [exact R2|]. rewrite hpos_snoc, (no_glue _ _ _ _ R1), flat_map_app. cbn [flat_map]. rewrite app_nil_r, app_assoc, widths_app.
    apply sums_add; [exact SH|]. now apply row_sums.
Qed.

(** ** C87 *)
Section Claims.
Context {St : Type}.
Variable uni_letter : Z -> bool.
Variable range : Symbols.gset -> list string.
Variable be : @backend float64 St.
Variable parse_float : string -> option float.
(** The box that mtex.Parse returns for an expression without stacking macros. *)
Definition flat_box (expr : string) (size dpi : float) (s : St) (t : @Box.tnode float64) : Prop :=
  exists l err s', parse_expr uni_letter expr = Ok l /\ level (NList l) /\
    mtex_parse uni_letter range be parse_float expr size dpi s = Some (LOk ((t, err), s')).
Lemma flat_row expr size dpi s t : flat_box expr size dpi s t -> exists l, t = hpack (A := float64) 0%float true (list_of KHList l) /\ row_tree t.
Proof.
  intros (l & err & s' & P & L & E). apply parse_inv in E as (l0 & P' & E). rewrite P in P'. injection P' as <-.
  apply typeset_row in E as (l' & -> & R); [|exact L]. exists l'. split; [reflexivity|]. split; [reflexivity|exact R].
Qed.

(** Its width is the sum of the widths of all letters and gaps, however they are
    nested, with a relative error of at most 2^-52 per part. *)
Theorem C87_width : forall expr size dpi s t, flat_box expr size dpi s t ->
  (Z.of_nat (List.length (parts t)) <= 2 ^ 52)%Z -> finite (t_width t) -> about (t_width t) (widths (parts t)).
Proof.
  intros * B N F. destruct (flat_row _ _ _ _ _ B) as (l & E & R). apply sums_about; [now apply row_sums| |exact F].
  unfold widths. now rewrite map_length.
Qed.

(** There is no overflow if the widths are finite and together at most 2^1022. *)
Theorem C87_width_in_range : forall expr size dpi s t, flat_box expr size dpi s t ->
  (Z.of_nat (List.length (parts t)) <= 2 ^ 52)%Z -> Forall (fun w => finite w) (widths (parts t)) -> mass (widths (parts t)) <= 2 ^ 1022 ->
  finite (t_width t) /\ about (t_width t) (widths (parts t)).
Proof.
  intros * B N F M. assert (X : finite (t_width t)); [|split; [exact X|eapply C87_width; eassumption]].
  destruct (flat_row _ _ _ _ _ B) as (l & E & R). eapply sums_in_range; [now apply row_sums| |exact F|exact M]. unfold widths. now rewrite map_length.
Qed.

(** Its height and depth are those of its highest and deepest letter, exactly. *)
Theorem C87_extent : forall expr size dpi s t, flat_box expr size dpi s t ->
  (forall c, In c (letters (parts t)) -> finite (c_height c) /\ finite (c_depth c)) ->
  (finite (t_height t) /\ R_of (t_height t) = greatest (map c_height (letters (parts t)))) /\
  (finite (t_depth t) /\ R_of (t_depth t) = greatest (map c_depth (letters (parts t)))).
Proof. intros * B T. destruct (flat_row _ _ _ _ _ B) as (l & E & R). pose proof (row_extent t R T) as X. rewrite E in X |- *. exact X. Qed.

(** Drawing it makes one call per letter, in order, all on the same baseline, and
    x is the origin plus all that stands before the letter, up to the same error. *)
Theorem C87_positions : forall expr size dpi s t ox oy t' st, flat_box expr size dpi s t ->
  ship_call (A := float64) ox oy t = LOk (t', st) ->
  Forall2 (fun e p => exists x, e = EGlyph x (0 + (oy + t_height t))%float (c_font (fst p)) (c_sym (fst p)) (c_dpi (fst p)) /\
             ((Z.of_nat (List.length (parts t)) < 2 ^ 52)%Z -> finite x -> about x (widths (snd p) ++ [ox])))
    (s_out st) (placed [] (parts t)).
Proof.
  intros * B SC. destruct (flat_row _ _ _ _ _ B) as (l & E & R).
  assert (PL : forall bf rest p, In p (placed bf rest) -> (List.length (snd p) <= List.length bf + List.length rest)%nat).
  { intros bf rest. revert bf. induction rest as [|[c|w] rest IH]; intros bf p I; cbn [placed] in I; [destruct I| |].
    - destruct I as [<-|I]; [cbn; lia|]. apply IH in I. rewrite app_length in I. cbn in *. lia.
    - apply IH in I. rewrite app_length in I. cbn in *. lia. }
  specialize (PL [] (parts t)).
  destruct t as [b|c|c|b|g|sz w|k b sh gs l0]; try discriminate E. clear E.
  pose proof (row_draws ox (oy + b_height b)%float _ R 0%float [] sums_0) as D. cbv beta iota in D.
  apply ship_ok_inv in SC as (_ & _ & ->). cbn [s_out t_height].
  set (ps := parts (TL k b sh gs l0)) in *. set (y := (0 + (oy + b_height b))%float) in *.
  change (draws ox (fadd float64 oy (b_height b)) false b (TL k b sh gs l0) (@f0 float64) (@f0 float64)) with
    (draws (A := float64) ox (oy + b_height b)%float false b (TL k b sh gs l0) 0%float 0%float).
  set (ds := draws (A := float64) ox (oy + b_height b)%float false b (TL k b sh gs l0) 0%float 0%float) in *. clearbody ds y.
  clear - D PL. induction D as [|e p ds qs [x [-> SX]] _ IH]; constructor; [|apply IH; intros; apply PL; now right].
  exists (x + ox)%float. split; [reflexivity|]. intros N F.
  apply sums_about; [apply sums_add; [exact SX|apply sums_1]| |exact F].
  specialize (PL p (or_introl eq_refl)). cbn [List.length] in PL. rewrite app_length. unfold widths. rewrite map_length. cbn [List.length]. lia.
Qed.
Lemma placed_prefix rest : forall bf p, In p (placed bf rest) -> exists r, bf ++ rest = snd p ++ r.
Proof.
  induction rest as [|[c|w] rest IH]; intros bf p I; cbn [placed] in I; [destruct I| |].
  - destruct I as [<-|I]; [cbn [snd]; eauto|]. apply IH in I as (r & I). exists r. now rewrite <- app_assoc in I.
  - apply IH in I as (r & I). exists r. now rewrite <- app_assoc in I.
Qed.
Theorem C87_positions_in_range : forall expr size dpi s t ox oy t' st, flat_box expr size dpi s t ->
  ship_call (A := float64) ox oy t = LOk (t', st) ->
  (Z.of_nat (List.length (parts t)) < 2 ^ 52)%Z -> Forall (fun w => finite w) (ox :: widths (parts t)) -> mass (ox :: widths (parts t)) <= 2 ^ 1022 ->
  Forall2 (fun e p => exists x, e = EGlyph x (0 + (oy + t_height t))%float (c_font (fst p)) (c_sym (fst p)) (c_dpi (fst p)) /\
             finite x /\ about x (widths (snd p) ++ [ox]))
    (s_out st) (placed [] (parts t)).
Proof.
  intros * B SC N F M. destruct (flat_row _ _ _ _ _ B) as (l & E & R).
  pose proof (placed_prefix (parts t) []) as PL. cbn [app] in PL.
  destruct t as [b|c|c|b|g|sz w|k b sh gs l0]; try discriminate E. clear E.
  pose proof (row_draws ox (oy + b_height b)%float _ R 0%float [] sums_0) as D. cbv beta iota in D.
  apply ship_ok_inv in SC as (_ & _ & ->). cbn [s_out t_height].
  set (ps := parts (TL k b sh gs l0)) in *. set (y := (0 + (oy + b_height b))%float) in *.
  change (draws ox (fadd float64 oy (b_height b)) false b (TL k b sh gs l0) (@f0 float64) (@f0 float64)) with
    (draws (A := float64) ox (oy + b_height b)%float false b (TL k b sh gs l0) 0%float 0%float).
  set (ds := draws (A := float64) ox (oy + b_height b)%float false b (TL k b sh gs l0) 0%float 0%float) in *. clearbody ds y ps.
  clear - D PL N F M. induction D as [|e p ds qs [x [-> SX]] _ IH]; constructor; [|apply IH; intros; apply PL; now right].
  exists (x + ox)%float. split; [reflexivity|]. destruct (PL p (or_introl eq_refl)) as (r & ->). assert (WA : widths (snd p ++ r) = widths (snd p) ++ widths r) by apply map_app. rewrite WA in *. rewrite app_length in N.
  assert (SS : sums (x + ox)%float (widths (snd p) ++ [ox])) by (apply sums_add; [exact SX|apply sums_1]).
  assert (LN : (Z.of_nat (List.length (widths (snd p) ++ [ox])) <= 2 ^ 52)%Z) by (unfold widths; rewrite app_length, map_length; cbn [List.length]; lia).
  inversion F as [|? ? F0 F1]; subst. apply Forall_app in F1 as [F1 _].
  assert (X : finite (x + ox)%float).
  { eapply sums_in_range; [exact SS|exact LN|apply Forall_app; split; [exact F1|constructor; [exact F0|constructor]]|].
    match type of M with mass (ox :: ?a ++ ?b) <= _ => change (ox :: a ++ b) with ([ox] ++ a ++ b) in M; pose proof (mass_pos b) end.
    rewrite mass_app in M |- *. rewrite mass_app in M. lra. }
  split; [exact X|]. now apply sums_about.
Qed.
Lemma concat_single {X} (l : list X) : List.concat (map (fun w => [w]) l) = l.
Proof. induction l; cbn; congruence. Qed.
(** The same for one row packed to its natural width. *)
Theorem C81_width_in_range : forall b sh gs (l : list (@Box.tnode float64)),
  let t := hpack (A := float64) 0%float true (TL KHList b sh gs l) in
  (Z.of_nat (List.length l) <= 2 ^ 52)%Z -> Forall (fun x => finite (t_width x)) l -> mass (map t_width l) <= 2 ^ 1022 ->
  finite (t_width t) /\ about (t_width t) (map t_width l).
Proof.
  intros b sh gs l t N F M. assert (X : finite (t_width t)); [|split; [exact X|now apply C81_width]].
  assert (E : t_width t = (0 + fold_left PrimFloat.add (map t_width l) 0)%float) by exact (proj1 (proj2 (C23_hpack_width float64 0%float b sh gs l))).
  rewrite E. eapply (sums_in_range _ (map t_width l)); [| |apply Forall_map; exact F|exact M].
  - rewrite <- (concat_single (map t_width l)) at 2. apply (sums_add _ _ [] ([] ++ _)); [apply sums_0|]. apply sums_fold; [|apply sums_0].
    generalize (map t_width l : list float). induction l0; constructor; [apply sums_1|assumption].
  - now rewrite map_length.
Qed.
End Claims.

(** "$AV+x$ b" in a font where all letters are 6 wide and 7 high and A moves towards
    V: its box is flat, its letters and gaps (the space is a letter) have finite sizes. *)
Definition c87_src : string := "$AV+x$ b".
Definition c87_nodes : list node := [NMath "$" 0 [NWord 1 "AV"; NSym 3 "+"; NWord 4 "x"] 5; NSym 6 " "; NWord 7 "b"].
Definition c87_run : option (lres ((@Box.tnode float64 * option string) * unit)) :=
  mtex_parse (fun _ => true) id_range c27_be (fun _ => None) c87_src 10%float 72%float tt.
Definition c87_box : @Box.tnode float64 := match c87_run with Some (LOk ((t, _), _)) => t | _ => TKern 0%Z 0%float end.
Example C87_case : flat_box (fun _ => true) id_range c27_be (fun _ => None) c87_src 10%float 72%float tt c87_box.
Proof.
  assert (P : parse_expr (fun _ => true) c87_src = Ok c87_nodes) by (vm_compute; reflexivity).
  assert (K : match c87_run with Some (LOk _) => True | _ => False end) by (vm_compute; exact I).
  unfold c87_box. destruct c87_run as [[[[t e] []]|m]|] eqn:E; try contradiction.
  exists c87_nodes, e, tt. split; [exact P|]. split; [cbn; tauto|exact E].
Qed.
Example C87_case_parts :
  map (fun p => match p with Letter c => (c_sym c, c_width c) | Gap w => ("", w) end) (parts c87_box) =
    [("A", 6); ("", -0.5); ("V", 6); ("", 1.2000000000000002); ("+", 6); ("", 1.2000000000000002); ("x", 6); (" ", 6); ("b", 6)]%float /\
  (t_width c87_box, t_height c87_box, t_depth c87_box) = (37.9, 7, 0)%float /\
  match ship_call (A := float64) 0%float 0%float c87_box with
  | LOk (_, st) => map (fun e => match e with EGlyph x y _ sy _ => (sy, x, y) | ERect x y _ _ => ("", x, y) end) (s_out st)
  | LPanic _ => []
  end = [("A", 0, 7); ("V", 5.5, 7); ("+", 12.7, 7); ("x", 19.9, 7); (" ", 25.9, 7); ("b", 31.9, 7)]%float /\
  forallb (fun p => match p with Letter c => PrimFloat.is_finite (c_height c) && PrimFloat.is_finite (c_depth c) | Gap _ => true end) (parts c87_box) = true.
Proof. vm_compute. repeat split. Qed.
Example C87_case_range : forallb (fun w => (PrimFloat.abs w <=? 6)%float) (0%float :: widths (parts c87_box)) = true /\ List.length (parts c87_box) = 9%nat.
Proof. split; vm_compute; reflexivity. Qed.
