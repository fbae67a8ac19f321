(** The few facts about comparison and maximum that the enclosure theorems need,
    proved for float64 and for exact arithmetic. *)
From Coq Require Import ZArith Bool List Reals Lra Floats.
From Flocq Require Import IEEE754.BinarySingleNaN IEEE754.PrimFloat.
From Verif Require Import Arith Exact.
Local Open Scope bool_scope.

(** A number: anything but NaN, which is the only value not equal to itself. *)
Definition num {A : arith} (x : F A) : Prop := feqb A x x = true.

Record order_laws (A : arith) : Prop := mk_order_laws {
  ol_0 : num (A:=A) f0;
  ol_irrefl : forall a : F A, num a -> fltb A a a = false;
  ol_trans : forall a b c : F A, num a -> num b -> num c ->
    fltb A b a = false -> fltb A c b = false -> fltb A c a = false;
  ol_max_l : forall a b : F A, num a -> num b -> fltb A (fmax A a b) a = false;
  ol_max_r : forall a b : F A, num a -> num b -> fltb A (fmax A a b) b = false;
  ol_max_in : forall a b : F A, num a -> num b -> fmax A a b = a \/ fmax A a b = b }.

(** ** Exact arithmetic *)
Lemma exact_num x : num (A:=exact) x <-> x <> NaN.
Proof.
  unfold num; cbn. destruct x; cbn; split; try congruence. intros _. apply qeqb_refl.
Qed.

Lemma exact_order : order_laws exact.
Proof.
  constructor.
  - now apply exact_num.
  - intros a _. destruct a; cbn; try reflexivity. apply qltb_irrefl.
  - intros a b c Ha%exact_num Hb%exact_num Hc%exact_num. now apply xltb_trans_f.
  - intros a b Ha%exact_num Hb%exact_num. now apply xmax_ub_l.
  - intros a b Ha%exact_num Hb%exact_num. now apply xmax_ub_r.
  - intros a b Ha%exact_num Hb%exact_num. now apply xmax_in.
Qed.

(** ** float64 *)
Notation bfloat := (binary_float prec emax).

Lemma bnum (x : bfloat) : Beqb x x = negb (BinarySingleNaN.is_nan x).
Proof.
  destruct x; try (destruct s; reflexivity); try reflexivity.
  assert (H := Beqb_correct prec emax (B754_finite s m e e0) (B754_finite s m e e0) eq_refl eq_refl).
  rewrite H. cbn. apply Raux.Req_bool_true. reflexivity.
Qed.

Lemma float_num (x : float) : num (A:=float64) x <-> BinarySingleNaN.is_nan (Prim2B x) = false.
Proof. unfold num; cbn. rewrite eqb_equiv, bnum. now destruct (BinarySingleNaN.is_nan _). Qed.

(** Order of non-NaN floats through the reals. *)
Lemma bltb_trans_f (a b c : bfloat) :
  BinarySingleNaN.is_nan a = false -> BinarySingleNaN.is_nan b = false -> BinarySingleNaN.is_nan c = false ->
  Bltb b a = false -> Bltb c b = false -> Bltb c a = false.
Proof.
  intros Ha Hb Hc H1 H2.
  assert (Hinf : forall x : bfloat, BinarySingleNaN.is_nan x = false ->
    BinarySingleNaN.is_finite x = true \/ x = B754_infinity true \/ x = B754_infinity false).
  { intros [s|s| |s m e He]; cbn; auto; try discriminate. destruct s; auto. }
  assert (Hfin : forall x y : bfloat, BinarySingleNaN.is_finite x = true -> BinarySingleNaN.is_finite y = true ->
    Bltb x y = false -> (B2R y <= B2R x)%R).
  { intros x y Fx Fy H. rewrite (Bltb_correct _ _ _ _ Fx Fy) in H.
    destruct (Raux.Rlt_bool_spec (B2R x) (B2R y)); [discriminate|assumption]. }
  destruct (Hinf a Ha) as [Fa|[->| ->]], (Hinf b Hb) as [Fb|[->| ->]], (Hinf c Hc) as [Fc|[->| ->]];
    match goal with
    | Fa : BinarySingleNaN.is_finite a = true, Fb : BinarySingleNaN.is_finite b = true, Fc : BinarySingleNaN.is_finite c = true |- _ =>
      pose proof (Hfin _ _ Fb Fa H1); pose proof (Hfin _ _ Fc Fb H2);
      rewrite (Bltb_correct _ _ _ _ Fc Fa); apply Raux.Rlt_bool_false; lra
    | _ => clear Hfin Hinf;
      repeat match goal with x : bfloat |- _ => destruct x as [[]|[]| |[]] end;
      cbn in *; discriminate || reflexivity
    end.
Qed.

Lemma bltb_irrefl (a : bfloat) : Bltb a a = false.
Proof.
  destruct a as [s|s| |s m e He]; try (destruct s; reflexivity); try reflexivity.
  rewrite Bltb_correct by reflexivity. apply Raux.Rlt_bool_false. lra.
Qed.

Lemma bltb_asym (a b : bfloat) : Bltb a b = true -> Bltb b a = false.
Proof.
  intros H.
  destruct (BinarySingleNaN.is_finite a) eqn:Fa, (BinarySingleNaN.is_finite b) eqn:Fb.
  - rewrite Bltb_correct in * by assumption.
    destruct (Raux.Rlt_bool_spec (B2R a) (B2R b)); [|discriminate]. apply Raux.Rlt_bool_false. lra.
  - destruct b as [[]|[]| |]; try discriminate Fb; destruct a as [[]|[]| |[]]; try discriminate; reflexivity.
  - destruct a as [[]|[]| |]; try discriminate Fa; destruct b as [[]|[]| |[]]; try discriminate; reflexivity.
  - destruct a as [[]|[]| |]; try discriminate Fa; destruct b as [[]|[]| |]; try discriminate; reflexivity.
Qed.

Lemma eqb_inf (x : float) : PrimFloat.eqb x infinity = true -> x = infinity.
Proof.
  rewrite eqb_spec. intros H. apply Prim2SF_inj.
  change (Prim2SF infinity) with (S754_infinity false) in *.
  destruct (Prim2SF x) as [[]|[]| |[] m e]; cbn in H; try discriminate; reflexivity.
Qed.

Lemma eqb_ltb (x y : float) : PrimFloat.eqb x y = true -> PrimFloat.ltb x y = false /\ PrimFloat.ltb y x = false.
Proof.
  rewrite eqb_equiv, !ltb_equiv. generalize (Prim2B x) (Prim2B y); clear x y; intros x y H.
  destruct (BinarySingleNaN.is_finite x) eqn:Fx, (BinarySingleNaN.is_finite y) eqn:Fy.
  - rewrite Beqb_correct in H by assumption. rewrite !Bltb_correct by assumption.
    destruct (Raux.Req_bool_spec (B2R x) (B2R y)) as [E|]; [|discriminate]. rewrite E.
    split; apply Raux.Rlt_bool_false; lra.
  - destruct y as [[]|[]| |]; try discriminate Fy; destruct x as [[]|[]| |[]]; try discriminate; auto.
  - destruct x as [[]|[]| |]; try discriminate Fx; destruct y as [[]|[]| |[]]; try discriminate; auto.
  - destruct x as [[]|[]| |]; try discriminate Fx; destruct y as [[]|[]| |]; try discriminate; auto.
Qed.

Lemma ltb_inf (x : float) : PrimFloat.ltb infinity x = false.
Proof.
  rewrite ltb_spec. change (Prim2SF infinity) with (S754_infinity false).
  destruct (Prim2SF x) as [[]|[]| |[] m e]; reflexivity.
Qed.

Lemma float_max_cases (a b : float) : num (A:=float64) a -> num (A:=float64) b ->
  (Float64.max a b = a /\ PrimFloat.ltb a b = false) \/ (Float64.max a b = b /\ PrimFloat.ltb b a = false).
Proof.
  intros Ha Hb. unfold Float64.max.
  destruct (PrimFloat.eqb a infinity) eqn:E1.
  { apply eqb_inf in E1. subst. left. split; [reflexivity|apply ltb_inf]. }
  destruct (PrimFloat.eqb b infinity) eqn:E2.
  { apply eqb_inf in E2. subst. right. split; [reflexivity|apply ltb_inf]. }
  unfold Float64.is_nan. unfold num in Ha, Hb; cbn in Ha, Hb. rewrite Ha, Hb. cbn [negb orb].
  destruct (PrimFloat.eqb a 0 && PrimFloat.eqb a b)%float eqn:E3.
  { apply andb_prop in E3 as [_ E3]. apply eqb_ltb in E3 as [E3 E4].
    destruct (Float64.sign_bit a); auto. }
  destruct (PrimFloat.ltb b a) eqn:E4; [left|right; auto]. split; [reflexivity|].
  rewrite ltb_equiv in E4 |- *. now apply bltb_asym.
Qed.

Lemma float64_order : order_laws float64.
Proof.
  constructor; cbn [feqb fltb fmax float64].
  - reflexivity.
  - intros a _. rewrite ltb_equiv. apply bltb_irrefl.
  - intros a b c Ha%float_num Hb%float_num Hc%float_num. rewrite !ltb_equiv. now apply bltb_trans_f.
  - intros a b Ha Hb. destruct (float_max_cases a b Ha Hb) as [[-> H]|[-> H]]; [|assumption].
    rewrite ltb_equiv. apply bltb_irrefl.
  - intros a b Ha Hb. destruct (float_max_cases a b Ha Hb) as [[-> H]|[-> H]]; [assumption|].
    rewrite ltb_equiv. apply bltb_irrefl.
  - intros a b Ha Hb. destruct (float_max_cases a b Ha Hb) as [[-> H]|[-> H]]; auto.
Qed.
