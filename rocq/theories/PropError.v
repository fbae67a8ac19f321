(** C81: rounding errors do not accumulate when rows are packed and drawn with
    float64. *)
From Coq Require Import ZArith String List Bool Reals Lia Lra Psatz.
From Flocq Require Import Core.Core Relative Plus_error IEEE754.BinarySingleNaN IEEE754.PrimFloat.
From Coq Require Import Floats Lra.
From Verif Require Import Arith Box Ship ShipSpec ShipFacts PackSpec PackFacts PropPack PropShip Float64Facts.
Import ListNotations.
Local Open Scope list_scope.
Local Open Scope R_scope.

(** The exact sum of float64 numbers, and the sum of their absolute values. *)
Definition total (l : list float) : R := fold_right Rplus 0 (map (fun x => R_of x) l).
Definition mass (l : list float) : R := fold_right Rplus 0 (map (fun x => Rabs (R_of x)) l).
(** [x] is the sum of [l] up to a relative error of 2^-52 for each term. *)
Definition about (x : float) (l : list float) : Prop :=
  Rabs (R_of x - total l) <= INR (List.length l) * / 2 ^ 52 * mass l.

Definition u : R := bpow radix2 (-53).
Lemma u_val : u = / 2 ^ 53.
Proof. unfold u. cbn [bpow]. change (Z.pow_pos radix2 53) with (2 ^ 53)%Z. rewrite pow_IZR. reflexivity. Qed.
Lemma u_pos : 0 < u. Proof. apply bpow_gt_0. Qed.
Lemma total_app a b : total (a ++ b) = total a + total b.
Proof. induction a as [|x a IH]; [symmetry; apply Rplus_0_l|]. change (R_of x + total (a ++ b) = R_of x + total a + total b). rewrite IH. lra. Qed.
Lemma mass_app a b : mass (a ++ b) = mass a + mass b.
Proof. induction a as [|x a IH]; [symmetry; apply Rplus_0_l|]. change (Rabs (R_of x) + mass (a ++ b) = Rabs (R_of x) + mass a + mass b). rewrite IH. lra. Qed.
Lemma mass_pos l : 0 <= mass l.
Proof. induction l as [|x l IH]; [cbn; lra|]. change (0 <= Rabs (R_of x) + mass l). pose proof (Rabs_pos (R_of x)). lra. Qed.
Lemma total_mass l : Rabs (total l) <= mass l.
Proof.
  induction l as [|x l IH]; [cbn; rewrite Rabs_R0; lra|]. change (Rabs (R_of x + total l) <= Rabs (R_of x) + mass l).
  eapply Rle_trans; [apply Rabs_triang|]. lra.
Qed.

(** One addition. *)
Lemma add_finite x y : finite (x + y)%float -> finite x /\ finite y.
Proof.
  rewrite add_equiv. destruct (Prim2B x) as [sx|sx| |sx mx ex Bx], (Prim2B y) as [sy|sy| |sy my ey By]; try (split; reflexivity); try discriminate;
    try (destruct sx; discriminate); try (destruct sy; discriminate).
  destruct sx, sy; discriminate.
Qed.
Lemma add_error x y : finite (x + y)%float -> Rabs (R_of (x + y)%float - (R_of x + R_of y)) <= u * Rabs (R_of x + R_of y).
Proof.
  intros F. destruct (add_finite x y F) as [Fx Fy]. rewrite add_equiv in *.
  pose proof (Bplus_correct FloatOps.prec FloatOps.emax Hprec Hmax mode_NE (Prim2B x) (Prim2B y) Fx Fy) as B.
  assert (P53 : Prec_gt_0 53) by (unfold Prec_gt_0; lia).
  assert (GF : forall z : float, generic_format radix2 (FLT_exp (3 - 1024 - 53) 53) (R_of z)) by (intros z; apply (generic_format_B2R FloatOps.prec FloatOps.emax)).
  destruct (FLT_plus_error_N_ex radix2 (3 - 1024 - 53) 53 (fun x => negb (Z.even x)) (R_of x) (R_of y) (GF x) (GF y)) as (eps & EB & E).
  destruct (Rlt_bool _ _) in B.
  - destruct B as (B & _). rewrite B. change (SpecFloat.fexp FloatOps.prec FloatOps.emax) with (FLT_exp (3 - 1024 - 53) 53). 
    cbn [round_mode]. rewrite E. replace ((R_of x + R_of y) * (1 + eps) - (R_of x + R_of y)) with (eps * (R_of x + R_of y)) by ring.
    rewrite Rabs_mult. apply Rmult_le_compat_r; [apply Rabs_pos|].
    eapply Rle_trans; [exact EB|]. eapply Rle_trans; [apply u_rod1pu_ro_le_u_ro; lia|]. unfold u_ro, u.
    rewrite bpow_plus. change (bpow radix2 1) with 2. change (bpow radix2 (- (53))) with (bpow radix2 (-53)). lra.
  - destruct B as (B & _). rewrite is_finite_SF_B2SF in F || idtac.
    exfalso. destruct (Bplus mode_NE (Prim2B x) (Prim2B y)); try discriminate F; cbn in B; unfold binary_overflow in B; cbn in B; discriminate B.
Qed.

Lemma p52 : 2 ^ 52 = IZR (2 ^ 52).
Proof. rewrite pow_IZR. reflexivity. Qed.
Definition gamma (n : nat) : R := (1 + u) ^ n - 1.
Lemma gamma_pos n : 0 <= gamma n.
Proof. unfold gamma. pose proof (pow_R1_Rle (1 + u) n). pose proof u_pos. lra. Qed.
Lemma chain l : forall a, finite (fold_left PrimFloat.add l a) ->
  Rabs (R_of (fold_left PrimFloat.add l a) - (R_of a + total l)) <= gamma (List.length l) * (Rabs (R_of a) + mass l).
Proof.
  induction l as [|x l IH] using rev_ind; intros a F.
  - cbn. replace (R_of a - (R_of a + 0)) with 0 by ring. rewrite Rabs_R0. unfold gamma. cbn. lra.
  - rewrite fold_left_app in *. cbn [fold_left] in *. set (s := fold_left PrimFloat.add l a) in *.
    destruct (add_finite _ _ F) as [Fs Fx]. specialize (IH a Fs). fold s in IH.
    pose proof (add_error _ _ F) as AE. rewrite total_app, mass_app, app_length. cbn [List.length]. rewrite Nat.add_1_r.
    assert (G : 1 + gamma (S (List.length l)) = (1 + u) * (1 + gamma (List.length l))) by (unfold gamma; cbn [pow]; ring).
    pose proof (gamma_pos (List.length l)) as GP. set (g := gamma (List.length l)) in *. set (g' := gamma (S (List.length l))) in *. clearbody g g'.
    unfold total at 2, mass at 2. cbn [map fold_right]. rewrite !Rplus_0_r.
    set (M := Rabs (R_of a) + mass l) in *. set (T := R_of a + total l) in *.
    assert (TM : Rabs T <= M).
    { unfold T, M. eapply Rle_trans; [apply Rabs_triang|]. apply Rplus_le_compat_l, total_mass. }
    assert (SM : Rabs (R_of s) <= (1 + g) * M).
    { replace (R_of s) with ((R_of s - T) + T) by ring. eapply Rle_trans; [apply Rabs_triang|]. lra. }
    assert (MP : 0 <= M) by (pose proof (Rabs_pos T); lra).
    replace (R_of (s + x)%float - (R_of a + (total l + R_of x))) with ((R_of (s + x)%float - (R_of s + R_of x)) + (R_of s - T)) by (unfold T; ring).
    replace (Rabs (R_of a) + (mass l + Rabs (R_of x))) with (M + Rabs (R_of x)) by (unfold M; ring).
    eapply Rle_trans; [apply Rabs_triang|]. pose proof (Rabs_triang (R_of s) (R_of x)) as TR. pose proof u_pos as UP.
    pose proof (Rabs_pos (R_of x)) as XP.
    assert (A1 : Rabs (R_of (s + x)%float - (R_of s + R_of x)) <= u * ((1 + g) * M + Rabs (R_of x))).
    { eapply Rle_trans; [exact AE|]. apply Rmult_le_compat_l; lra. }
    replace g' with ((1 + u) * (1 + g) - 1) by lra.
    assert (0 <= g * u) by (apply Rmult_le_pos; lra). assert (0 <= (g * u) * Rabs (R_of x)) by (apply Rmult_le_pos; lra).
    assert (0 <= g * Rabs (R_of x)) by (apply Rmult_le_pos; lra). nra.
Qed.
Lemma gamma_bound n : (Z.of_nat n <= 2 ^ 52)%Z -> gamma n <= INR n * / 2 ^ 52.
Proof.
  intros H. assert (U2 : / 2 ^ 52 = 2 * u) by (rewrite u_val; cbn [pow]; field).
  assert (E : forall m, (m <= n)%nat -> (1 + u) ^ m <= 1 + 2 * INR m * u).
  { induction m as [|m IH]; intros L; [cbn; lra|]. rewrite S_INR. cbn [pow].
    assert (IHm : (1 + u) ^ m <= 1 + 2 * INR m * u) by (apply IH; lia).
    assert (MB : 2 * INR m * u <= 1).
    { replace (2 * INR m * u) with (INR m * / 2 ^ 52) by (rewrite U2; ring). rewrite INR_IZR_INZ.
      assert (IZR (Z.of_nat m) <= 2 ^ 52). { rewrite p52. apply IZR_le. lia. }
      assert (P : 0 < 2 ^ 52) by (apply pow_lt; lra). apply (Rmult_le_reg_r (2 ^ 52)); [exact P|]. rewrite Rmult_assoc, Rinv_l; lra. }
    pose proof u_pos. assert (0 <= 1 + u) by lra. assert (M1 := Rmult_le_compat_l _ _ _ H1 IHm). nra. }
  unfold gamma. specialize (E n (le_n n)). rewrite U2. lra.
Qed.
Lemma sum_about l : (Z.of_nat (List.length l) <= 2 ^ 52)%Z -> finite (fold_left PrimFloat.add l 0%float) -> about (fold_left PrimFloat.add l 0%float) l.
Proof.
  intros N F. pose proof (chain l 0%float F) as C. assert (Z0 : R_of 0%float = 0) by apply zero_int. rewrite Z0, Rabs_R0, !Rplus_0_l in C.
  unfold about. eapply Rle_trans; [exact C|]. apply Rmult_le_compat_r; [apply mass_pos|]. apply gamma_bound. exact N.
Qed.
Lemma zero_add x : finite (0 + x)%float -> R_of (0 + x)%float = R_of x.
Proof.
  intros F. pose proof (add_finite _ _ F) as [F0 Fx]. rewrite add_equiv in *.
  destruct zero_int as [Z1 Z2].
  pose proof (Bplus_correct FloatOps.prec FloatOps.emax Hprec Hmax mode_NE (Prim2B 0%float) (Prim2B x) F0 Fx) as B.
  rewrite Z2, Rplus_0_l in B. rewrite round_generic in B; [|apply valid_rnd_N|apply generic_format_B2R].
  rewrite Rlt_bool_true in B by apply abs_B2R_lt_emax. apply B.
Qed.

(** A packed row is as wide as its elements together. *)
Theorem C81_width : forall b sh gs (l : list (@Box.tnode float64)),
  let t := hpack (A := float64) 0%float true (TL KHList b sh gs l) in
  (Z.of_nat (List.length l) <= 2 ^ 52)%Z -> finite (t_width t) -> about (t_width t) (map t_width l).
Proof.
  intros b sh gs l t N F.
  assert (E : t_width t = (0 + fold_left PrimFloat.add (map t_width l) 0)%float) by exact (proj1 (proj2 (C23_hpack_width float64 0%float b sh gs l))).
  rewrite E in *. destruct (add_finite _ _ F) as [_ F2]. unfold about. rewrite (zero_add _ F). apply sum_about; [now rewrite map_length|exact F2].
Qed.

(** ** Positions *)

(** How far each element of a row moves the pen: the size of a space after
    stretching, the width of anything else. *)
Fixpoint advances_after (gs : @gset float64) (pre rest : list (@Box.tnode float64)) : list float :=
  match rest with
  | [] => []
  | x :: r => match x with TGlue g => glue_size gs pre g | _ => t_width x end :: advances_after gs (pre ++ [x]) r
  end.
Definition advances (gs : @gset float64) (l : list (@Box.tnode float64)) : list float := advances_after gs [] l.

(** The horizontal distances on the way from a list to a list somewhere inside it:
    what precedes it in the rows around it, and its shift in the columns around it. *)
Inductive across : bool -> @Box.tnode float64 -> list float -> bool -> @Box.tnode float64 -> Prop :=
  | across_here vert t : across vert t [] vert t
  | across_h k b sh gs pre k1 b1 sh1 gs1 l1 post ts vert' t' :
      k1 = KHList \/ k1 = KVList ->
      across (is_vlist k1) (TL k1 b1 sh1 gs1 l1) ts vert' t' ->
      across false (TL k b sh gs (pre ++ TL k1 b1 sh1 gs1 l1 :: post)) (advances gs pre ++ ts) vert' t'
  | across_v k b sh gs pre k1 b1 sh1 gs1 l1 post ts vert' t' :
      k1 = KHList \/ k1 = KVList ->
      across (is_vlist k1) (TL k1 b1 sh1 gs1 l1) ts vert' t' ->
      across true (TL k b sh gs (pre ++ TL k1 b1 sh1 gs1 l1 :: post)) (sh1 :: ts) vert' t'.

Lemma hpos_sum gs x pre : hpos (A := float64) gs x pre = fold_left PrimFloat.add (advances gs pre) x.
Proof.
  unfold hpos, advances. generalize (@nil (@Box.tnode float64)). revert x.
  induction pre as [|y pre IH]; intros x l; [reflexivity|]. cbn [after advances_after fold_left]. rewrite IH. reflexivity.
Qed.
Lemma across_place vert t ts vert' t' : across vert t ts vert' t' ->
  forall bx x v, exists bx' v', place (A := float64) vert bx t x v vert' bx' t' (fold_left PrimFloat.add ts x) v'.
Proof.
  induction 1; intros bx x v.
  - exists bx, v. constructor.
  - destruct (IHacross b1 (hpos gs x pre) (fadd float64 v sh1)) as (bx' & v' & P). exists bx', v'. rewrite fold_left_app, <- hpos_sum. eapply place_h; eassumption.
  - edestruct (IHacross (box_width (b_width bx) b1) (fadd float64 x sh1)) as (bx' & v' & P). exists bx', v'. cbn [fold_left]. eapply place_v; eassumption.
Qed.

(** The x coordinate of a glyph is the sum of the distances on the way to it. *)
Theorem C81_drift : forall ox oy k b sh gs (l : list (@Box.tnode float64)) t' st,
  ship_call (A := float64) ox oy (TL k b sh gs l) = LOk (t', st) ->
  forall ts k' b' sh' gs' pre c post,
  across false (TL k b sh gs l) ts false (TL k' b' sh' gs' (pre ++ TChar c :: post)) ->
  let way := ts ++ advances gs' pre ++ [ox] in
  exists E1 x y E2, s_out st = E1 ++ [EGlyph x y (c_font c) (c_sym c) (c_dpi c)] ++ E2 /\
    ((Z.of_nat (List.length way) <= 2 ^ 52)%Z -> finite x -> about x way).
Proof.
  intros ox oy k b sh gs l t' st H ts k' b' sh' gs' pre c post AC way.
  destruct (across_place _ _ _ _ _ AC b 0%float 0%float) as (bx' & v & P).
  destruct (C31_char_position ox oy k b sh gs l t' st H _ _ _ _ _ _ _ _ _ _ P) as (E1 & E2 & E).
  exists E1. eexists. eexists. exists E2. split; [exact E|]. intros N F.
  rewrite hpos_sum, <- fold_left_app in *. 
  change (fadd float64 (fold_left PrimFloat.add (ts ++ advances gs' pre) 0%float) ox) with (fold_left PrimFloat.add [ox] (fold_left PrimFloat.add (ts ++ advances gs' pre) 0%float)) in *.
  rewrite <- fold_left_app, <- app_assoc in *. fold way in F |- *.
  now apply sum_about.
Qed.

(** How far each element of a column moves the position downwards. *)
Definition drop (gs : @gset float64) (pre : list (@Box.tnode float64)) (x : @Box.tnode float64) : list float :=
  match x with
  | TGlue g => [glue_size gs pre g]
  | TKern _ w => [w]
  | TL (KHList | KVList) _ _ _ (_ :: _) => [t_height x; t_depth x]
  | TL (KHList | KVList) _ _ _ [] => [(t_height x + t_depth x)%float]
  | _ => if vvisible x then [(t_height x + t_depth x)%float] else []
  end.
Fixpoint drops_after (gs : @gset float64) (pre rest : list (@Box.tnode float64)) : list float :=
  match rest with
  | [] => []
  | x :: r => drop gs pre x ++ drops_after gs (pre ++ [x]) r
  end.
Definition drops (gs : @gset float64) (l : list (@Box.tnode float64)) : list float := drops_after gs [] l.

(** The vertical distances from the baseline of a list to that of a list somewhere
    inside it: its shift in the rows around it; in the columns around it up to their
    top, down past what precedes it, and down its own height. *)
Inductive down : bool -> @Box.tnode float64 -> list float -> bool -> @Box.tnode float64 -> Prop :=
  | down_here vert t : down vert t [] vert t
  | down_h k b sh gs pre k1 b1 sh1 gs1 l1 post ts vert' t' :
      k1 = KHList \/ k1 = KVList ->
      down (is_vlist k1) (TL k1 b1 sh1 gs1 l1) ts vert' t' ->
      down false (TL k b sh gs (pre ++ TL k1 b1 sh1 gs1 l1 :: post)) (sh1 :: ts) vert' t'
  | down_v k b sh gs pre k1 b1 sh1 gs1 l1 post ts vert' t' :
      k1 = KHList \/ k1 = KVList ->
      down (is_vlist k1) (TL k1 b1 sh1 gs1 l1) ts vert' t' ->
      down true (TL k b sh gs (pre ++ TL k1 b1 sh1 gs1 l1 :: post)) ((- b_height b)%float :: drops gs pre ++ b_height b1 :: ts) vert' t'.

Lemma vpos_sum gs x pre : vpos (A := float64) gs x pre = fold_left PrimFloat.add (drops gs pre) x.
Proof.
  unfold vpos, drops. generalize (@nil (@Box.tnode float64)). revert x.
  induction pre as [|y pre IH]; intros x l; [reflexivity|]. cbn [after drops_after fold_left]. rewrite IH, fold_left_app. f_equal.
  unfold below, drop. destruct y as [| | | | | |[] ? ? ? [|]]; try reflexivity; destruct (vvisible _); reflexivity.
Qed.
Lemma sub_opp x y : (x - y)%float = (x + - y)%float.
Proof. apply Prim2B_inj. rewrite sub_equiv, add_equiv, opp_equiv. destruct (Prim2B x) as [sx|sx| |sx mx ex Bx], (Prim2B y) as [sy|sy| |sy my ey By]; cbn; try reflexivity; try (destruct sx, sy; reflexivity). Qed.
Lemma down_place vert t ts vert' t' : down vert t ts vert' t' ->
  forall bx x v, b_height bx = match t with TL _ b _ _ _ => b_height b | _ => b_height bx end ->
  exists bx' x', place (A := float64) vert bx t x v vert' bx' t' x' (fold_left PrimFloat.add ts v).
Proof.
  induction 1; intros bx x v HB.
  - exists bx, x. constructor.
  - destruct (IHdown b1 (hpos gs x pre) (fadd float64 v sh1)) as (bx' & v' & P); [reflexivity|]. exists bx', v'. cbn [fold_left]. eapply place_h; eassumption.
  - destruct (IHdown (box_width (b_width bx) b1) (fadd float64 x sh1) (fadd float64 (vpos gs (fsub float64 v (b_height bx)) pre) (b_height b1))) as (bx' & v' & P); [reflexivity|].
    exists bx', v'. cbn [fold_left]. rewrite fold_left_app. cbn [fold_left]. rewrite <- vpos_sum.
    change (v + - b_height b)%float with (v + - b_height b)%float. rewrite <- sub_opp. cbn in HB. rewrite <- HB. eapply place_v; eassumption.
Qed.
(** The y coordinate of a glyph is the sum of the distances on the way to it. *)
Theorem C81_drift_y : forall ox oy k b sh gs (l : list (@Box.tnode float64)) t' st,
  ship_call (A := float64) ox oy (TL k b sh gs l) = LOk (t', st) ->
  forall ts k' b' sh' gs' pre c post,
  down false (TL k b sh gs l) ts false (TL k' b' sh' gs' (pre ++ TChar c :: post)) ->
  let way := ts ++ [(oy + b_height b)%float] in
  exists E1 x y E2, s_out st = E1 ++ [EGlyph x y (c_font c) (c_sym c) (c_dpi c)] ++ E2 /\
    ((Z.of_nat (List.length way) <= 2 ^ 52)%Z -> finite y -> about y way).
Proof.
  intros ox oy k b sh gs l t' st H ts k' b' sh' gs' pre c post AC way.
  destruct (down_place _ _ _ _ _ AC b 0%float 0%float eq_refl) as (bx' & v & P).
  destruct (C31_char_position ox oy k b sh gs l t' st H _ _ _ _ _ _ _ _ _ _ P) as (E1 & E2 & E).
  exists E1. eexists. eexists. exists E2. split; [exact E|]. intros N F.
  change (fadd float64 (fold_left PrimFloat.add ts 0%float) (fadd float64 oy (b_height b))) with (fold_left PrimFloat.add [(oy + b_height b)%float] (fold_left PrimFloat.add ts 0%float)) in *.
  rewrite <- fold_left_app in *. fold way in F |- *.
  now apply sum_about.
Qed.

(** ** C82: Grow after Shrink *)

(** A number and what has become of it: within a relative error of 2^-51, or the
    same if it is infinite or not a number. *)
Definition nearly (x y : float) : Prop :=
  (~ finite x -> y = x) /\
  (finite x -> R_of x = 0 \/ / 2 ^ 1000 <= Rabs (R_of x) <= 2 ^ 1000 -> finite y /\ Rabs (R_of y - R_of x) <= / 2 ^ 51 * Rabs (R_of x)).
Definition nearly_box (b c : @box float64) : Prop :=
  b_size c = b_size b /\ nearly (b_width b) (b_width c) /\ nearly (b_height b) (b_height c) /\ nearly (b_depth b) (b_depth c).
Definition nearly_char (c d : @tchar float64) : Prop :=
  c_sym d = c_sym c /\ c_size d = c_size c /\ nearly (c_width c) (c_width d) /\ nearly (c_height c) (c_height d) /\ nearly (c_depth c) (c_depth d) /\
  c_metrics d = c_metrics c /\ f_name (c_font d) = f_name (c_font c) /\ f_type (c_font d) = f_type (c_font c) /\
  nearly (f_size (c_font c)) (f_size (c_font d)) /\ c_dpi d = c_dpi c /\ c_math d = c_math c.
(** Two trees that differ only in such small errors. *)
Inductive nearly_same : @Box.tnode float64 -> @Box.tnode float64 -> Prop :=
  | ns_box b c : nearly_box b c -> nearly_same (TBox b) (TBox c)
  | ns_rule b c : nearly_box b c -> nearly_same (TRule b) (TRule c)
  | ns_char c d : nearly_char c d -> nearly_same (TChar c) (TChar d)
  | ns_glue n w w' st so sk ko : nearly w w' -> nearly_same (TGlue (mk_glue n w st so sk ko)) (TGlue (mk_glue n w' st so sk ko))
  | ns_kern n w w' : nearly w w' -> nearly_same (TKern n w) (TKern n w')
  | ns_list k b c sh sh' v v' sg o r l l' : nearly_box b c -> nearly sh sh' -> nearly v v' -> Forall2 nearly_same l l' ->
      nearly_same (TL k b sh (mk_gset v sg o r) l) (TL k c sh' (mk_gset v' sg o r) l').

Lemma mul_error x y : finite x -> finite y -> bpow radix2 (-1022) <= Rabs (R_of x * R_of y) <= bpow radix2 1023 ->
  finite (x * y)%float /\ Rabs (R_of (x * y)%float - R_of x * R_of y) <= u * Rabs (R_of x * R_of y).
Proof.
  intros Fx Fy [L H]. rewrite mul_equiv.
  pose proof (Bmult_correct FloatOps.prec FloatOps.emax Hprec Hmax mode_NE (Prim2B x) (Prim2B y)) as B. cbv zeta in B.
  change (SpecFloat.fexp FloatOps.prec FloatOps.emax) with (FLT_exp (3 - 1024 - 53) 53) in B. cbn [round_mode] in B.
  assert (P53 : Prec_gt_0 53) by (unfold Prec_gt_0; lia).
  pose proof (relative_error_N_FLT radix2 (3 - 1024 - 53) 53 P53 (fun x => negb (Z.even x)) _ L) as E.
  assert (UU : / 2 * bpow radix2 (- (53) + 1) = u).
  { unfold u. rewrite bpow_plus. change (bpow radix2 1) with 2. change (bpow radix2 (- (53))) with (bpow radix2 (-53)). lra. }
  rewrite UU in E. rewrite Rlt_bool_true in B.
  - destruct B as (B1 & B2 & _). rewrite B1, B2, Fx, Fy. split; [reflexivity|exact E].
  - set (r := round _ _ _ _) in *. set (p := R_of x * R_of y) in *.
    assert (Rabs r <= (1 + u) * Rabs p). { replace r with ((r - p) + p) by ring. eapply Rle_trans; [apply Rabs_triang|]. lra. }
    assert (U1 : u < 1). { unfold u. change 1 with (bpow radix2 0). apply bpow_lt. lia. }
    pose proof u_pos. pose proof (bpow_gt_0 radix2 (-1022)). assert (X : (1 + u) * Rabs p < 2 * Rabs p) by (apply Rmult_lt_compat_r; lra).
    change (bpow radix2 FloatOps.emax) with (bpow radix2 (1 + 1023)). rewrite bpow_plus. change (bpow radix2 1) with 2. lra.
Qed.
Lemma bpow_neg n : bpow radix2 (- Z.of_nat n) = / 2 ^ n.
Proof. rewrite bpow_opp, bpow_powerRZ. rewrite <- pow_powerRZ. reflexivity. Qed.
Lemma bpow_nat n : bpow radix2 (Z.of_nat n) = 2 ^ n.
Proof. rewrite bpow_powerRZ. rewrite <- pow_powerRZ. reflexivity. Qed.

(** The two factors. *)
Lemma shrink_value : finite (@shrink_factor float64) /\ R_of (@shrink_factor float64) = IZR 6305039478318694 * bpow radix2 (-53).
Proof.
  assert (E : exists H, Prim2B (@shrink_factor float64) = B754_finite false 6305039478318694 (-53) H) by (eexists; vm_compute; reflexivity).
  destruct E as (H & E). rewrite E. split; reflexivity.
Qed.
Lemma grow_value : finite (@grow_factor float64) /\ R_of (@grow_factor float64) = IZR 6433713753386423 * bpow radix2 (-52).
Proof.
  assert (E : exists H, Prim2B (@grow_factor float64) = B754_finite false 6433713753386423 (-52) H) by (eexists; vm_compute; reflexivity).
  destruct E as (H & E). rewrite E. split; reflexivity.
Qed.

Lemma factors : let f := R_of (@shrink_factor float64) in let g := R_of (@grow_factor float64) in
  / 2 <= f <= 2 /\ / 2 <= g <= 2 /\ Rabs (f * g - 1) <= u.
Proof.
  cbv zeta. rewrite (proj2 shrink_value), (proj2 grow_value). unfold u.
  assert (E : bpow radix2 (-53) = / IZR (2 ^ 53)) by reflexivity. assert (E2 : bpow radix2 (-52) = / IZR (2 ^ 52)) by reflexivity.
  rewrite E, E2. repeat split; try apply Rabs_le; lra.
Qed.
Lemma round_trip f g x : finite f -> finite g -> / 2 <= R_of f <= 2 -> / 2 <= R_of g <= 2 -> Rabs (R_of f * R_of g - 1) <= u ->
  nearly x (x * f * g)%float.
Proof.
  intros Ff Fg Bf Bg FG. split.
  - intros N. apply Prim2B_inj. rewrite !mul_equiv.
    assert (Sf : exists m e H, Prim2B f = B754_finite false m e H).
    { destruct (Prim2B f) as [s|s| |[] m e H] eqn:E; try discriminate Ff; cbn in Bf; [lra| |eauto].
      exfalso. unfold F2R in Bf. cbn in Bf. pose proof (bpow_gt_0 radix2 e). assert (IZR (Zneg m) < 0) by now apply IZR_lt. nra. }
    assert (Sg : exists m e H, Prim2B g = B754_finite false m e H).
    { destruct (Prim2B g) as [s|s| |[] m e H] eqn:E; try discriminate Fg; cbn in Bg; [lra| |eauto].
      exfalso. unfold F2R in Bg. cbn in Bg. pose proof (bpow_gt_0 radix2 e). assert (IZR (Zneg m) < 0) by now apply IZR_lt. nra. }
    destruct Sf as (? & ? & ? & ->), Sg as (? & ? & ? & ->). destruct (Prim2B x) as [|[]| |]; try (exfalso; apply N; reflexivity); reflexivity.
  - intros Fx [Z|[L H]].
    + rewrite Z, Rabs_R0, Rmult_0_r, Rminus_0_r.
      assert (K : forall a b, finite a -> finite b -> R_of a = 0 -> finite (a * b)%float /\ R_of (a * b)%float = 0).
      { intros a b Fa Fb A0. rewrite mul_equiv.
        pose proof (Bmult_correct FloatOps.prec FloatOps.emax Hprec Hmax mode_NE (Prim2B a) (Prim2B b)) as B. cbv zeta in B.
        rewrite A0, Rmult_0_l, round_0, Rabs_R0 in B by apply valid_rnd_N. rewrite Rlt_bool_true in B by apply bpow_gt_0.
        destruct B as (B1 & B2 & _). rewrite B1, B2, Fa, Fb. split; reflexivity. }
      destruct (K x f Fx Ff Z) as [F1 Z1]. destruct (K _ g F1 Fg Z1) as [F2 Z2]. rewrite Z2, Rabs_R0. split; [exact F2|lra].
    + rewrite <- (bpow_neg 1000) in L. rewrite <- (bpow_nat 1000) in H. change (bpow radix2 (- (1000)) <= Rabs (R_of x)) in L. change (Rabs (R_of x) <= bpow radix2 1000) in H.
      set (X := R_of x) in *. set (a := R_of f) in *. set (b := R_of g) in *. pose proof u_pos as UP.
      assert (U1 : u <= / 8). { unfold u. change (/ 8) with (bpow radix2 (-3)). apply bpow_le. lia. }
      assert (Xp : 0 < Rabs X) by (eapply Rlt_le_trans; [apply (bpow_gt_0 radix2 (- (1000)))|exact L]).
      assert (Aa : Rabs a = a) by (apply Rabs_pos_eq; lra). assert (Ab : Rabs b = b) by (apply Rabs_pos_eq; lra).
      assert (S1 : bpow radix2 (-1022) <= bpow radix2 (- (1000)) * / 8).
      { change (/ 8) with (bpow radix2 (-3)). rewrite <- bpow_plus. apply bpow_le. lia. }
      assert (S2 : bpow radix2 1000 * 8 <= bpow radix2 1023).
      { change 8 with (bpow radix2 3). rewrite <- bpow_plus. apply bpow_le. lia. }
      pose proof (bpow_gt_0 radix2 1000) as P1000. pose proof (bpow_gt_0 radix2 (- (1000))) as PM.
      assert (XA1 : / 2 * Rabs X <= Rabs X * a) by nra. assert (XA2 : Rabs X * a <= 2 * Rabs X) by nra.
      destruct (mul_error x f Fx Ff) as [F1 E1]. { fold X a. rewrite Rabs_mult, Aa. split; lra. }
      fold X a in E1. set (y := (x * f)%float) in *. set (Y := R_of y) in *. rewrite Rabs_mult, Aa in E1.
      assert (YL : (1 - u) * (Rabs X * a) <= Rabs Y).
      { pose proof (Rabs_triang (Y - X * a) (- Y)) as T. replace (Y - X * a + - Y) with (- (X * a)) in T by ring. rewrite !Rabs_Ropp, Rabs_mult, Aa in T. lra. }
      assert (YH : Rabs Y <= (1 + u) * (Rabs X * a)).
      { pose proof (Rabs_triang (Y - X * a) (X * a)) as T. replace (Y - X * a + X * a) with Y in T by ring. rewrite Rabs_mult, Aa in T. lra. }
      assert (Y1 : / 2 * (/ 2 * Rabs X) <= Rabs Y) by nra. assert (Y2 : Rabs Y <= 4 * Rabs X) by nra.
      destruct (mul_error y g F1 Fg) as [F2 E2]. { fold Y b. rewrite Rabs_mult, Ab. assert (/ 2 * Rabs Y <= Rabs Y * b) by nra. assert (Rabs Y * b <= 2 * Rabs Y) by nra. split; lra. }
      fold Y b in E2. split; [exact F2|]. set (W := R_of (y * g)%float) in *. rewrite Rabs_mult, Ab in E2.
      replace (W - X) with ((W - Y * b) + ((Y - X * a) * b + X * (a * b - 1))) by ring.
      eapply Rle_trans; [apply Rabs_triang|]. eapply Rle_trans; [apply Rplus_le_compat_l, Rabs_triang|].
      rewrite !Rabs_mult, Ab.
      assert (AB : a * b <= 1 + u) by (apply Rabs_le_inv in FG; lra).
      assert (M1 : Rabs (Y - X * a) * b <= u * (Rabs X * a) * b) by (apply Rmult_le_compat_r; lra).
      assert (M2 : u * (Rabs X * a) * b <= u * (Rabs X * (1 + u))).
      { rewrite Rmult_assoc. apply Rmult_le_compat_l; [lra|]. rewrite Rmult_assoc. apply Rmult_le_compat_l; lra. }
      assert (M3 : Rabs X * Rabs (a * b - 1) <= Rabs X * u) by (apply Rmult_le_compat_l; lra).
      assert (M4 : Rabs Y * b <= (1 + u) * (Rabs X * (1 + u))).
      { apply Rle_trans with ((1 + u) * (Rabs X * a) * b); [apply Rmult_le_compat_r; lra|]. rewrite Rmult_assoc. apply Rmult_le_compat_l; [lra|]. rewrite Rmult_assoc. apply Rmult_le_compat_l; lra. }
      assert (M5 : u * (Rabs Y * b) <= u * ((1 + u) * (Rabs X * (1 + u)))) by (apply Rmult_le_compat_l; lra).
      assert (U4 : / 2 ^ 51 = 4 * u) by (rewrite u_val; cbn [pow]; field). rewrite U4.
      set (UX := u * Rabs X) in *. assert (0 < UX) by (apply Rmult_lt_0_compat; lra).
      replace (u * ((1 + u) * (Rabs X * (1 + u)))) with (UX * ((1 + u) * (1 + u))) in M5 by (unfold UX; ring).
      replace (u * (Rabs X * (1 + u))) with (UX * (1 + u)) in M2 by (unfold UX; ring).
      replace (Rabs X * u) with UX in M3 by (unfold UX; ring). replace (4 * u * Rabs X) with (UX * 4) by (unfold UX; ring).
      assert (UX * ((1 + u) * (1 + u)) <= UX * (3 / 2)) by (apply Rmult_le_compat_l; nra).
      assert (UX * (1 + u) <= UX * (3 / 2)) by (apply Rmult_le_compat_l; lra). lra.
Qed.

Local Ltac parts H := unfold nearly_box, nearly_char; repeat match goal with |- nearly _ _ => apply H | |- _ /\ _ => split end; try reflexivity; cbn; lia.
Lemma nearly_scaled f g n (t : @Box.tnode float64) : (forall x, nearly x (x * f * g)%float) -> accent_free t ->
  nearly_same t (scaled (A := float64) g (- n) (scaled (A := float64) f n t)).
Proof.
  intros H. induction t as [b|c|c|b|gl|sz w|k b sh gs l IH] using tnode_ind'; intros AF; cbn [scaled].
  - constructor. parts H.
  - constructor. parts H.
  - destruct AF.
  - constructor. parts H.
  - destruct gl. cbn. replace (g_size + n + - n)%Z with g_size by lia. constructor. apply H.
  - replace (sz + n + - n)%Z with sz by lia. constructor. apply H.
  - destruct gs as [v sg o r]. cbn [gs_set gs_sign gs_order gs_ratio]. constructor; try apply H.
    + parts H.
    + cbn [accent_free] in AF. rewrite map_map.
      induction IH as [|y l Hy _ IHl]; [constructor|]. cbn [map fold_right] in *. destruct AF as [A1 A2]. constructor; auto.
Qed.

(** Growing a shrunk tree, or shrinking a grown one, restores it up to relative
    errors of 2^-51 in its dimensions; infinite dimensions of rules are restored
    exactly. *)
Theorem C82_round_trip : forall S (be : @backend float64 S) (t : @Box.tnode float64) s,
  accent_free t -> Forall (fun n => (n <= 5)%Z) (sizes t) ->
  (exists t', mbind (shrink be t) (grow be) s = LOk (t', s) /\ nearly_same t t') /\
  (exists t', mbind (grow be t) (shrink be) s = LOk (t', s) /\ nearly_same t t').
Proof.
  intros S be t s Ha Hs. destruct shrink_value as [F1 _], grow_value as [F2 _]. destruct factors as (B1 & B2 & B3). unfold mbind. split.
  - rewrite shrink_scaled; auto.
    2:{ eapply Forall_impl; [|exact Hs]. cbn. intros; lia. }
    rewrite grow_scaled by now apply accent_free_scaled.
    eexists. split; [reflexivity|]. apply (nearly_scaled _ _ (-1)); [|exact Ha]. intros x. now apply round_trip.
  - rewrite grow_scaled by assumption.
    rewrite shrink_scaled.
    2:{ now apply accent_free_scaled. }
    2:{ rewrite sizes_scaled. rewrite Forall_forall in *. intros z Hz. apply in_map_iff in Hz as (z' & <- & Hz').
        specialize (Hs z' Hz'). lia. }
    eexists. split; [reflexivity|]. apply (nearly_scaled _ _ 1); [|exact Ha]. intros x. apply round_trip; auto. now rewrite Rmult_comm.
Qed.

(** A row of two characters 0.1 wide with a space of 0.2 between them, drawn from
    x = 0.1: both are drawn, the second at the float64 nearest to 0.4. *)
Definition c81_char (w : float) : @Box.tnode float64 :=
  TChar (mk_char "x" 0%Z w 1%float 0%float (mk_metrics (A := float64) 6 7 6 0 6 0 7 7 false)%float (mk_font "default" "rm" 10%float) 72%float true).
Definition c81_row : list (@Box.tnode float64) := [c81_char 0.1; TKern 0%Z 0.2; c81_char 0.1]%float.
Definition c81_tree : @Box.tnode float64 := hpack (A := float64) 0%float true (TL KHList (new_box 0 0 0)%float 0%float (mk_gset (A := float64) 0 0 0 0)%float c81_row).
Example C81_case :
  match ship_call (A := float64) 0.1%float 2%float c81_tree with
  | LOk (_, st) => map (fun e => match e with EGlyph x y _ _ _ => (x, y) | ERect x y _ _ => (x, y) end) (s_out st)
  | LPanic _ => []
  end = [(0.1, 3); (0.4, 3)]%float /\ advances (t_glue c81_tree) [c81_char 0.1; TKern 0%Z 0.2]%float = [0.1; 0.2]%float /\
  t_width c81_tree = 0.4%float.
Proof. vm_compute. repeat split. Qed.
(** The sum of 0.1 and 0.2 is not the float64 0.3: errors do occur. *)
Example C81_rounds : fold_left PrimFloat.add [0.1; 0.2]%float 0%float <> 0.3%float.
Proof. intros H. apply (f_equal (fun x => PrimFloat.eqb x 0.3)) in H. vm_compute in H. discriminate. Qed.
(** A tree with an infinitely high rule, a space and a nested row. *)
Example C82_case : accent_free (TL KHList (new_box 3 5 infinity)%float 0%float (t_glue c81_tree) [TRule (new_box 1 infinity 0)%float; TKern 0%Z 3%float; c81_tree]) /\
  Forall (fun n => (n <= 5)%Z) (sizes (TL KHList (new_box 3 5 infinity)%float 0%float (t_glue c81_tree) [TRule (new_box 1 infinity 0)%float; TKern 0%Z 3%float; c81_tree])).
Proof. split; [repeat constructor|]. vm_compute. repeat constructor; discriminate. Qed.
