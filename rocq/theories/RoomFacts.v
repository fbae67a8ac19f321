(** Proof that pictures stay within the size of their expression (PicSpec.v). *)
From Coq Require Import ZArith String Ascii List Bool Lia QArith Qround Qcanon Lqa.
From Verif Require Import Utf8 Token Ast SetTable Symbols TreeSpec Arith Exact OrderLaws Box Ship
  MtexSpec FracSpec PropMtex ReadSpec GeomSpec GeomFacts SizeSpec SizeFacts PropSize PicSpec PicFacts.
Import ListNotations.
Local Open Scope string_scope.
Local Open Scope list_scope.
Local Open Scope Qc_scope.

(** Polynomial inequalities, linear in the monomials. *)
Ltac qpush := unfold Qclt, Qcle in *;
  repeat match goal with
  | H : context [this (_ + _)] |- _ => rewrite this_plus in H
  | H : context [this (_ - _)] |- _ => rewrite this_minus in H
  | H : context [this (_ * _)] |- _ => rewrite this_mult in H
  | H : context [this (- _)] |- _ => rewrite this_opp in H
  | |- context [this (_ + _)] => rewrite this_plus
  | |- context [this (_ - _)] => rewrite this_minus
  | |- context [this (_ * _)] => rewrite this_mult
  | |- context [this (- _)] => rewrite this_opp
  end;
  change (this 0) with 0%Q in *; change (this 1) with 1%Q in *.
Ltac ql := qpush; lra.

Lemma mul_le k a b : 0 <= k -> a <= b -> k * a <= k * b.
Proof. intros K H. rewrite (Qcmult_comm k a), (Qcmult_comm k b). now apply Qcmult_le_compat_r. Qed.
Lemma mul_pos a b : 0 <= a -> 0 <= b -> 0 <= a * b.
Proof. intros K H. replace 0 with (a * 0) by ring. now apply mul_le. Qed.

Lemma snap_bounds q : 0 <= q -> 0 <= snap q /\ snap q <= q + Q2Qc (1 # 2).
Proof.
  intros H. unfold snap. rewrite nearest_qround.
  pose proof (qround_bound q) as B. pose proof (proj1 (qround_bounds q 0) H) as P.
  set (z := qround q) in *. clearbody z.
  assert (Z1 : (0 <= Z.max (-1000000000) (Z.min 1000000000 z) <= z)%Z) by lia.
  set (w := Z.max _ _) in *. clearbody w. destruct Z1 as [Z1 Z2]. rewrite Zle_Qle in Z1, Z2.
  unfold Qcle in *. rewrite this_plus. change (this (Q2Qc (1 # 2))) with (1 # 2)%Q. cbn [this Q2Qc] in *. rewrite !Qred_correct.
  change (inject_Z 0) with 0%Q in Z1. change (this 0) with 0%Q in *. split; lra.
Qed.

Section Room.
Variables (M : measures) (size dpi : Qc).
Hypothesis REG : regular M size.

Definition half (n : nat) : Qc := Q2Qc (Z.of_nat n # 2).
Lemma half_le n m : (n <= m)%nat -> half n <= half m.
Proof. intros H. unfold Qcle, half. cbn [this Q2Qc]. rewrite !Qred_correct. unfold Qle. cbn. lia. Qed.
Lemma half_0 : half 0 = 0. Proof. apply Qc_is_canon. reflexivity. Qed.
Lemma half_S n : half (S n) = half n + Q2Qc (1 # 2).
Proof.
  apply Qc_is_canon. unfold half. rewrite this_plus. cbn [this Q2Qc]. rewrite !Qred_correct. unfold Qeq, Qplus. cbn. lia.
Qed.

(** The figure's drawing calls, including lines without thickness. *)
Fixpoint traces (dpi k x y : Qc) (f : figure) : list (@event exact) :=
  match f with
  | Blank => []
  | Join f g => traces dpi k x y f ++ traces dpi k x y g
  | Mark s ft => [EGlyph (A:=exact) (Fin x) (Fin y) (resize k ft) s (Fin dpi)]
  | Stroke w h => [ERect (A:=exact) (Fin x) (Fin y) (Fin (x + k * w)) (Fin (y + k * h))]
  | Move dx dy f => traces dpi k (x + k * dx) (y + k * dy) f
  | Slide d f => traces dpi k (x + snap (k * d)) y f
  | Drop d f => traces dpi k x (y + snap (k * d)) f
  | Small f => traces dpi (k * Q2Qc (7 # 10)) x y f
  end.
Lemma ink_traces P d f : forall k x y, Forall P (traces d k x y f) -> Forall P (ink d k x y f).
Proof.
  induction f; intros k x y; cbn [ink traces]; auto.
  - rewrite !Forall_app. intros [A B]. split; auto.
  - destruct (qltb 0 h); auto.
Qed.

(** Where the figure's marks can be with its reference point between [y1] and [y2],
    if a drop moves by no more than its (scaled) length: a glyph between two
    heights, the top of a line at least at the first height and its bottom at most
    at the second; and the number of drops a mark is in, counted from [m]. *)
Inductive spot : Type :=
  | Glyph_at (s : string) (ft : font) (lo hi : Qc) (m : nat)
  | Line_at (lo hi : Qc) (m : nat).
Fixpoint reach (k y1 y2 : Qc) (m : nat) (f : figure) : list spot :=
  match f with
  | Blank => []
  | Join f g => reach k y1 y2 m f ++ reach k y1 y2 m g
  | Mark s ft => [Glyph_at s (resize k ft) y1 y2 m]
  | Stroke w h => [Line_at y1 (y2 + k * h) m]
  | Move dx dy f => reach k (y1 + k * dy) (y2 + k * dy) m f
  | Slide d f => reach k y1 y2 m f
  | Drop d f => reach k (y1 + qmin 0 (k * d)) (y2 + qmax 0 (k * d)) (S m) f
  | Small f => reach (k * Q2Qc (7 # 10)) y1 y2 m f
  end.
Definition kept (a b : Qc) (n : nat) (p : spot) : Prop :=
  match p with
  | Glyph_at s ft lo hi m => a <= lo - up M s ft true /\ hi + down M s ft true <= b /\ (m <= n)%nat
  | Line_at lo hi m => a <= lo /\ hi <= b /\ (m <= n)%nat
  end.
Lemma kept_mono a b n a' b' n' p : a' <= a -> b <= b' -> (n <= n')%nat -> kept a b n p -> kept a' b' n' p.
Proof.
  intros A B C. destruct p; cbn [kept]; intros (H1 & H2 & H3);
    (split; [eapply Qcle_trans; eassumption|split; [eapply Qcle_trans; eassumption|etransitivity; eassumption]]).
Qed.
(** The figure [f] stays [h] above and [d] below the reference point, up to [n]
    half pixels. *)
Definition fits (f : figure) (h d : Qc) (n : nat) : Prop := (forall k y1 y2 m, 0 <= k -> Forall (kept (y1 - k * h) (y2 + k * d) (m + n)) (reach k y1 y2 m f)) /\
  forall k x y, 0 <= k -> Forall (stays M (y - k * h) (y + k * d + half n)) (traces dpi k x y f).

Lemma stays_mono a b a' b' e : a' <= a -> b <= b' -> stays M a b e -> stays M a' b' e.
Proof.
  intros A B. destruct e as [x [y| | |] ? ? ?|? [y1| | |] ? [y2| | |]]; cbn [stays]; try contradiction;
    (intros [H1 H2]; split; [eapply Qcle_trans; eassumption|eapply Qcle_trans; eassumption]).
Qed.
Lemma fits_ink f h d n : fits f h d n -> forall k x y, 0 <= k -> Forall (stays M (y - k * h) (y + k * d + half n)) (ink dpi k x y f).
Proof. intros [_ F] k x y K. now apply ink_traces, F. Qed.
Lemma fits_mono f h d n h' d' n' : fits f h d n -> h <= h' -> d <= d' -> (n <= n')%nat -> fits f h' d' n'.
Proof.
  intros [V F] A B C. split.
  { intros k y1 y2 m K. eapply Forall_impl; [|apply V; exact K]. cbv beta. intros p. pose proof (mul_le k _ _ K A). pose proof (mul_le k _ _ K B).
    apply kept_mono; [ql|ql|apply Nat.add_le_mono_l; exact C]. }
  intros k x y K. eapply Forall_impl; [|apply F; exact K]. cbv beta. intros e. apply half_le in C.
  pose proof (mul_le k _ _ K A). pose proof (mul_le k _ _ K B). apply stays_mono; ql.
Qed.
Lemma fits_blank h d n : fits Blank h d n. Proof. split; [intros; constructor|]. intros k x y K. constructor. Qed.
Lemma fits_join f g h d n : fits f h d n -> fits g h d n -> fits (Join f g) h d n.
Proof. intros [V F] [V' G]. split; [intros k y1 y2 m K; cbn [reach]; apply Forall_app; split; [now apply V|now apply V']|]. intros k x y K. cbn [traces]. apply Forall_app. split; [now apply F|now apply G]. Qed.
Lemma fits_move f dx dy h d n : fits f h d n -> fits (Move dx dy f) (h - dy) (d + dy) n.
Proof.
  intros [V F]. split.
  { intros k y1 y2 m K. cbn [reach]. eapply Forall_impl; [|apply V; exact K]. intros p. apply kept_mono; [ql|ql|apply le_n]. }
  intros k x y K. cbn [traces]. eapply Forall_impl; [|apply F; exact K]. intros e. apply stays_mono; ql.
Qed.
Lemma fits_slide f s h d n : fits f h d n -> fits (Slide s f) h d n.
Proof. intros [V F]. split; [intros k y1 y2 m K; cbn [reach]; now apply V|]. intros k x y K. cbn [traces]. now apply F. Qed.
Lemma qmm a : 0 <= a -> qmin 0 a = 0 /\ qmax 0 a = a.
Proof.
  intros H. split; [|now apply qmax_r]. unfold qmin. destruct (qltb 0 a) eqn:E; [reflexivity|].
  apply qltb_false in E. now apply Qcle_antisym.
Qed.
Lemma fits_drop f s h d n : 0 <= s -> fits f h d n -> fits (Drop s f) h (d + s) (S n).
Proof.
  intros S0 [V F]. split.
  { intros k y1 y2 m K. cbn [reach]. destruct (qmm _ (mul_pos _ _ K S0)) as [-> ->]. eapply Forall_impl; [|apply V; exact K]. cbv beta. intros p. apply kept_mono; [ql|ql|]. rewrite Nat.add_succ_r. apply le_n. }
  intros k x y K. cbn [traces]. eapply Forall_impl; [|apply F; exact K]. intros e. rewrite half_S.
  destruct (snap_bounds (k * s) (mul_pos _ _ K S0)) as [B1 B2]. apply stays_mono; ql.
Qed.
Lemma fits_small f h d n : fits f h d n -> fits (Small f) (Q2Qc (7 # 10) * h) (Q2Qc (7 # 10) * d) n.
Proof.
  intros [V F]. split.
  { intros k y1 y2 m K. cbn [reach]. eapply Forall_impl; [|apply V, mul_pos; [exact K|discriminate]]. intros p. apply kept_mono; [ql|ql|apply le_n]. }
  intros k x y K. cbn [traces]. eapply Forall_impl; [|apply F, mul_pos; [exact K|discriminate]]. intros e.
  apply stays_mono; ql.
Qed.
Lemma fits_stroke w h : 0 <= h -> fits (Stroke w h) 0 h 0.
Proof.
  intros H. split.
  { intros k y1 y2 m K. cbn [reach]. constructor; [|constructor]. cbn [kept]. split; [ql|]. split; [apply Qcle_refl|]. apply Nat.le_add_r. }
  intros k x y K. cbn [traces]. constructor; [|constructor]. cbn [stays].
  rewrite half_0. split; ql.
Qed.
Lemma fits_mark s f z m : f_size f = Fin z -> fits (Mark s f) (up M s f m) (down M s f m) 0.
Proof.
  intros F. split.
  { intros k y1 y2 n K. cbn [reach]. constructor; [|constructor]. cbn [kept]. destruct REG as (R1 & R2 & _).
    destruct (R1 s f m) as [-> ->]. destruct (R2 s f z k F K) as [-> ->]. split; [ql|]. split; [ql|apply Nat.le_add_r]. }
  intros k x y K. cbn [traces]. constructor; [|constructor]. cbn [stays]. destruct REG as (R1 & R2 & _).
  destruct (R1 s f m) as [-> ->]. destruct (R2 s f z k F K) as [-> ->]. rewrite half_0. split; ql.
Qed.

(** ** Rows *)
Definition shape_fits (n : nat) (s : shape) : Prop := fits (snd s) (tall M (fst s)) (deep M (fst s)) n.
Lemma shape_mono n n' s : (n <= n')%nat -> shape_fits n s -> shape_fits n' s.
Proof. intros L F. exact (fits_mono _ _ _ _ _ _ _ F (Qcle_refl _) (Qcle_refl _) L). Qed.
Lemma fold_qmax_in l x : In x l -> forall a, x <= fold_left qmax l a.
Proof.
  induction l as [|y l IH]; intros I a; [destruct I|]. cbn [fold_left]. destruct I as [->|I]; [|now apply IH].
  eapply Qcle_trans; [|apply fold_qmax_ge]. apply qmax_ge.
Qed.
Lemma lay_fits n l : Forall (shape_fits n) l ->
  forall x h d, (forall s, In s l -> tall M (fst s) <= h /\ deep M (fst s) <= d) -> fits (lay M x l) h d n.
Proof.
  induction 1 as [|[p f] l Hs HL IH]; intros x h d B; cbn [lay]; [apply fits_blank|]. apply fits_join.
  - destruct (B (p, f) (or_introl eq_refl)) as [B1 B2]. cbn [fst] in B1, B2.
    eapply fits_mono; [apply fits_move; exact Hs| | |apply le_n]; cbn [fst]; ql.
  - apply IH. intros s I. apply B. now right.
Qed.
Lemma row_fits n l : Forall (shape_fits n) l -> fits (lay M 0 l) (x_h (row M (map fst l))) (x_d (row M (map fst l))) n.
Proof.
  intros H. apply lay_fits; [exact H|]. intros s I. unfold row. cbn [x_h x_d].
  split; apply fold_qmax_in, in_map, in_map; exact I.
Qed.
Definition boxed_fits (n : nat) (b : boxed) : Prop := fits (snd b) (x_h (fst b)) (x_d (fst b)) n /\ 0 <= x_h (fst b) /\ 0 <= x_d (fst b).
Lemma boxed_mono n n' b : (n <= n')%nat -> boxed_fits n b -> boxed_fits n' b.
Proof. intros L [F P]. split; [|exact P]. exact (fits_mono _ _ _ _ _ _ _ F (Qcle_refl _) (Qcle_refl _) L). Qed.
Lemma box_fits n l : Forall (shape_fits n) l -> boxed_fits n (box_of M l).
Proof.
  intros H. split; [apply row_fits; exact H|]. unfold box_of, row. cbn [fst x_h x_d]. split; apply fold_qmax_ge.
Qed.
Lemma framed_fits n l : Forall (shape_fits n) l -> shape_fits n (framed M l).
Proof. exact (row_fits n l). Qed.
Lemma small_fits n b : boxed_fits n b -> boxed_fits n (small b).
Proof.
  intros (F & H & D). unfold small, scale. split; cbn [fst snd x_h x_d]; [now apply fits_small|].
  split; apply mul_pos; try assumption; discriminate.
Qed.
Lemma space_fits w : shape_fits 0 (space w). Proof. unfold shape_fits, space. cbn [snd]. apply fits_blank. Qed.
Lemma mark_fits s f m z : f_size f = Fin z -> shape_fits 0 (mark s f m). Proof. intros F. exact (fits_mark s f z m F). Qed.

(** ** Constructions *)
Lemma delim_reach c typ H D : In c ["("; ")"; "\__sqrt__"] -> In typ ["rm"; "it"] -> 0 <= H -> 0 <= D ->
  fits (snd (delim M c (face size typ) H D)) H D 0 /\
  H <= x_h (delimiter M c (face size typ) H D) /\ D <= x_d (delimiter M c (face size typ) H D).
Proof.
  intros C T HP DP. destruct REG as (_ & R2 & _ & R4). specialize (R4 c typ C T). unfold delim, delimiter. cbn [snd x_h x_d].
  set (f := face size typ) in *. set (u := up M c f true) in *. set (v := down M c f true) in *.
  set (q := (H + D) / (u + v)).
  assert (N : u + v <> 0) by (intros E; rewrite E in R4; now apply Qclt_not_eq in R4).
  assert (QP : 0 <= q).
  { unfold q, Qcdiv. apply mul_pos; [ql|]. apply Qcnot_lt_le. intros L.
    assert (X : 0 < (u + v) * (- / (u + v))).
    { replace 0 with (0 * (- / (u + v))) by ring. apply Qcmult_lt_compat_r; [ql|exact R4]. }
    replace ((u + v) * (- / (u + v))) with (- (1)) in X by (field; exact N). discriminate X. }
  assert (E : q * (u + v) = H + D) by (unfold q; field; exact N).
  destruct (R2 c f size q eq_refl QP) as [-> ->]. fold u v.
  split; [|split].
  - pose proof (fits_mark c (resize q f) (size * q) true eq_refl) as F. destruct (R2 c f size q eq_refl QP) as [EU EV]. rewrite EU, EV in F. fold u v in F.
    eapply fits_mono; [apply fits_move, F| | |apply le_n].
    + replace (q * u) with (H + D - q * v) by (rewrite <- E; ring). ql.
    + ql.
  - pose proof (proj2 (qmax_ge 0 (q * u))) as G. replace (q * u) with (H + D - q * v) in G at 1 by (rewrite <- E; ring). ql.
  - pose proof (proj2 (qmax_ge 0 (q * v))) as G. ql.
Qed.
Lemma delim_fits c typ H D : In c ["("; ")"; "\__sqrt__"] -> In typ ["rm"; "it"] -> 0 <= H -> 0 <= D -> shape_fits 0 (delim M c (face size typ) H D).
Proof.
  intros C T HP DP. destruct (delim_reach c typ H D C T HP DP) as (F & F1 & F2). exact (fits_mono _ _ _ _ _ _ _ F F1 F2 (le_n _)).
Qed.
Lemma frac_fits n th r ax a b : 0 <= th -> 0 <= r -> r <= th -> boxed_fits n a -> boxed_fits n b -> shape_fits n (frac_shape M th r ax a b).
Proof.
  intros TH R RT (FA & AH & AD) (FB & BH & BD). unfold shape_fits, frac_shape. cbn [fst snd tall deep].
  set (h := ax + (th + r) + x_d (fst a) + x_h (fst a)). set (d := x_d (fst b) + x_h (fst b) + (th + th + th) - ax).
  apply (fits_mono _ h d n).
  - unfold frac_figure. apply fits_join; [|apply fits_join].
    + eapply fits_mono; [apply fits_move, fits_slide, FA| | |apply le_n]; unfold h, d; ql.
    + eapply fits_mono; [apply fits_move, fits_stroke; exact R| | |apply Nat.le_0_l]; unfold h, d; ql.
    + eapply fits_mono; [apply fits_move, fits_slide, FB| | |apply le_n]; unfold h, d; ql.
  - unfold fraction, row. cbn [x_h]. fold h d. apply fold_qmax_in. cbn [map tall x_h]. now left.
  - unfold fraction, row. cbn [x_d]. fold h d. apply fold_qmax_in. cbn [map deep x_d]. now left.
  - apply le_n.
Qed.
Lemma frac_dims th r ax a b : 0 <= x_h (fraction M th r ax a b) /\ 0 <= x_d (fraction M th r ax a b).
Proof. unfold fraction, row. cbn [x_h x_d]. split; apply fold_qmax_ge. Qed.
Lemma binom_fits n th ax typ a b : In typ ["rm"; "it"] -> 0 <= th -> boxed_fits n a -> boxed_fits n b ->
  shape_fits n (binom_shape M th ax (face size typ) a b).
Proof.
  intros T TH FA FB. unfold binom_shape. destruct (frac_dims th 0 ax (fst a) (fst b)) as [D1 D2].
  apply framed_fits. constructor; [|constructor; [|constructor; [|constructor]]].
  - eapply shape_mono; [apply Nat.le_0_l|]. apply delim_fits; cbn [In]; auto.
  - apply frac_fits; auto. apply Qcle_refl.
  - eapply shape_mono; [apply Nat.le_0_l|]. apply delim_fits; cbn [In]; auto.
Qed.
Lemma lined_fits n th pad w H b : 0 <= th -> x_h (fst b) + (th + th) <= H -> boxed_fits n b ->
  fits (lined th pad w H b) H (x_d (fst b)) (S n).
Proof.
  intros TH HH (F & FH & FD). unfold lined. apply fits_join.
  - eapply fits_mono; [apply fits_move, fits_stroke; exact TH| | |apply Nat.le_0_l]; ql.
  - assert (E : qmax 0 (H - (th + x_h (fst b))) = H - (th + x_h (fst b))) by (apply qmax_r; ql). rewrite E.
    eapply fits_mono; [apply fits_move, fits_drop; [|exact F]| | |apply le_n]; ql.
Qed.
Lemma over_fits n th e b : 0 <= th -> 0 <= e -> boxed_fits n b -> shape_fits (S n) (over_shape M th e b).
Proof.
  intros TH EP B. unfold shape_fits, over_shape. cbn [fst snd tall deep]. unfold overline, row. cbn [x_h x_d map tall deep fold_left].
  eapply fits_mono; [apply (lined_fits n); [exact TH| |exact B]| | |apply le_n].
  - ql.
  - apply qmax_ge.
  - apply qmax_ge.
Qed.
Lemma root_fits n th e typ i b : In typ ["rm"; "it"] -> 0 <= th -> 0 <= e ->
  match i with Some i => boxed_fits n i | None => True end -> boxed_fits n b -> shape_fits (S n) (root_shape M th e (face size typ) i b).
Proof.
  intros T TH EP I B. unfold root_shape. cbv zeta.
  set (H := x_h (fst b) + (th + th + th + th + th)). set (c := delimiter M "\__sqrt__" (face size typ) H (x_d (fst b))).
  destruct B as (F & FH & FD). assert (HP : 0 <= H) by (unfold H; ql).
  destruct (delim_reach "\__sqrt__" typ H (x_d (fst b)) (or_intror (or_intror (or_introl eq_refl))) T HP FD) as (_ & CH & CD). fold c in CH, CD.
  apply framed_fits. constructor; [|constructor; [|constructor; [|constructor; [|constructor]]]].
  - unfold shape_fits. cbn [fst snd tall deep x_h x_d]. destruct i as [i|]; cbn [fst snd].
    + destruct I as [FI _]. eapply fits_mono; [apply fits_move, FI| | |apply Nat.le_succ_diag_r]; ql.
    + apply fits_blank.
  - eapply shape_mono; [apply Nat.le_0_l|apply space_fits].
  - eapply shape_mono; [apply Nat.le_0_l|]. apply delim_fits; cbn [In]; auto.
  - unfold shape_fits. cbn [fst snd tall deep x_h x_d].
    assert (E : qmin (x_d (fst b)) (x_d c) = x_d (fst b)).
    { unfold qmin. destruct (qltb (x_d (fst b)) (x_d c)) eqn:Q; [reflexivity|]. apply qltb_false in Q. now apply Qcle_antisym. }
    rewrite E. apply lined_fits; [exact TH| |exact (conj F (conj FH FD))]. unfold H in CH. ql.
Qed.

(** ** Expressions *)
Variable expr : string.
Lemma symbol_fits m typ s p : Forall (shape_fits 0) (symbol_shape M expr size m typ s p).
Proof.
  assert (G : shape_fits 0 (mark s (face size typ) m)) by (eapply mark_fits; reflexivity).
  assert (T : shape_fits 0 (space (em_over M size 1 5))) by apply space_fits.
  assert (ONE : forall x, shape_fits 0 x -> Forall (shape_fits 0) [x]) by (intros x H; exact (Forall_cons _ H (Forall_nil _))).
  unfold symbol_shape. destruct (one_of _ _); [destruct (_ && _)|destruct (String.eqb s "."); [destruct (decimal_point _ _)|]].
  - exact (ONE _ G).
  - apply ONE, framed_fits. exact (Forall_cons _ T (Forall_cons _ G (ONE _ T))).
  - exact (ONE _ G).
  - apply ONE, framed_fits. exact (Forall_cons _ G (ONE _ T)).
  - exact (ONE _ G).
Qed.
Lemma letters_fit m typ l : Forall (shape_fits 0) (map (letter_shape size m typ) l).
Proof. induction l; constructor; [eapply mark_fits; reflexivity|assumption]. Qed.

Definition most (l : list node) : nat := (fix most l := match l with [] => O | x :: l' => Nat.max (bars x) (most l') end) l.
Lemma bars_most l : bars_of l = most l. Proof. unfold bars_of. induction l as [|x l IH]; cbn; [reflexivity|]. now rewrite IH. Qed.
Lemma most_in l x : In x l -> (bars x <= most l)%nat.
Proof. induction l as [|y l IH]; intros []; cbn [most]; [subst; apply Nat.le_max_l|]. etransitivity; [now apply IH|apply Nat.le_max_r]. Qed.
Lemma forall_mono n n' l : (n <= n')%nat -> Forall (shape_fits n) l -> Forall (shape_fits n') l.
Proof. intros L. apply Forall_impl. intros s. now apply shape_mono. Qed.

Hypothesis CL : 0 <= clearance size dpi.
Lemma shapes_fit n :
  (forall w m typ, In typ ["rm"; "it"] -> Forall (shape_fits (bars n)) (shapes M expr size dpi w m typ n)) /\
  Forall (fun x => forall w m typ, In typ ["rm"; "it"] -> Forall (shape_fits (bars x)) (shapes M expr size dpi w m typ x)) (list_children n).
Proof.
  set (P := fun n => forall w m typ, In typ ["rm"; "it"] -> Forall (shape_fits (bars n)) (shapes M expr size dpi w m typ n)).
  change (P n /\ Forall P (list_children n)).
  assert (FC : forall l, Forall (fun n => P n /\ Forall P (list_children n)) l -> Forall P l).
  { intros l H. eapply Forall_impl; [|exact H]. cbn. tauto. }
  assert (FM : forall l w m typ, In typ ["rm"; "it"] -> Forall P l -> Forall (shape_fits (most l)) (flat_map (shapes M expr size dpi w m typ) l)).
  { intros l w m typ T H. induction H as [|x l Hx _ IH]; [constructor|]. cbn [flat_map most]. apply Forall_app. split.
    - eapply forall_mono; [apply Nat.le_max_l|now apply Hx].
    - eapply forall_mono; [apply Nat.le_max_r|exact IH]. }
  assert (ONE : forall k s, shape_fits k s -> Forall (shape_fits k) [s]) by (intros; constructor; [assumption|constructor]).
  induction n using node_ind'; cbn [list_children]; split; auto; try (apply Forall_nil); try (intros w m typ _; apply Forall_nil).
  - intros [] m typ T; [|constructor]. cbn [shapes bars]. apply FM; auto.
  - destruct nm as [[p name]|]; [|intros w m typ _; apply Forall_nil]. intros w m typ T. cbn [shapes].
    assert (A : forall x k, In x l -> (most l <= k)%nat -> boxed_fits k (box_of M (flat_map (shapes M expr size dpi true m typ) (list_children x)))).
    { intros x k I L. apply box_fits. eapply forall_mono; [|apply FM; [exact T|rewrite Forall_forall in H; apply (H x I)]].
      etransitivity; [|exact L]. etransitivity; [|apply most_in; exact I].
      destruct x as [| |[[? ?]|]| | | | | | | | |]; cbn [list_children bars]; try apply le_n; try apply Nat.le_0_l.
      destruct (one_of _ _); [apply Nat.le_succ_diag_r|apply le_n]. }
    assert (TH : 0 <= line M (face size typ)) by (now apply REG).
    assert (B : (most l <= bars (NMacro (Some (p, name)) l))%nat).
    { cbn [bars]. fold (most l). destruct (one_of _ _); [apply Nat.le_succ_diag_r|apply le_n]. }
    assert (B2 : one_of ["\sqrt"; "\overline"] name = true -> bars (NMacro (Some (p, name)) l) = S (most l)).
    { intros E. cbn [bars]. fold (most l). now rewrite E. }
    set (k := bars (NMacro (Some (p, name)) l)) in *. clearbody k.
    assert (Z : forall l, Forall (shape_fits 0) l -> Forall (shape_fits k) l) by (intros l0; apply forall_mono, Nat.le_0_l).
    assert (AR : forall a x b, In (NArg a x b) l -> boxed_fits k (box_of M (flat_map (shapes M expr size dpi true m typ) x))).
    { intros a x b I. now apply (A _ _ I). }
    assert (AM : forall a x b, In (NArg a x b) l -> boxed_fits (most l) (box_of M (flat_map (shapes M expr size dpi true m typ) x))).
    { intros a x b I. now apply (A _ _ I). }
    assert (AO : forall a x b, In (NOptArg a x b) l -> boxed_fits (most l) (box_of M (flat_map (shapes M expr size dpi true m typ) x))).
    { intros a x b I. now apply (A _ _ I). }
    clear H A.
    destruct (one_of spacing_names name); [apply Z, ONE, space_fits|].
    destruct (String.eqb name "\hspace").
    { destruct l as [|[] l]; try apply Forall_nil.
      match goal with |- context [match ?x with [] => _ | _ => _ end] => destruct x as [|[] ?]; try apply Forall_nil end. apply Z, ONE, space_fits. }
    destruct (one_of FunctionNames_list (sdrop 1 name)). { apply Z, ONE, framed_fits, letters_fit. }
    destruct (one_of ["\frac"; "\tfrac"] name).
    { destruct l as [|[| | |a1 x1 b1| | | | | | | |] [|[| | |a2 x2 b2| | | | | | | |] l]]; try apply Forall_nil.
      apply ONE, frac_fits; auto; [apply Qcle_refl|apply small_fits; apply (AR a1 x1 b1); cbn; auto|apply small_fits; apply (AR a2 x2 b2); cbn; auto]. }
    destruct (String.eqb name "\dfrac").
    { destruct l as [|[| | |a1 x1 b1| | | | | | | |] [|[| | |a2 x2 b2| | | | | | | |] l]]; try apply Forall_nil.
      apply ONE, frac_fits; auto; [apply Qcle_refl|apply (AR a1 x1 b1); cbn; auto|apply (AR a2 x2 b2); cbn; auto]. }
    destruct (String.eqb name "\binom").
    { destruct l as [|[| | |a1 x1 b1| | | | | | | |] [|[| | |a2 x2 b2| | | | | | | |] l]]; try apply Forall_nil.
      apply ONE, binom_fits; auto; [apply small_fits; apply (AR a1 x1 b1); cbn; auto|apply small_fits; apply (AR a2 x2 b2); cbn; auto]. }
    destruct (String.eqb name "\sqrt") eqn:ES.
    { apply String.eqb_eq in ES. rewrite (B2 (ltac:(now rewrite ES))).
      destruct l as [|y1 [|y2 [|y3 l]]]; try apply Forall_nil.
      - destruct y1; try apply Forall_nil. apply ONE, root_fits; auto. apply (AM _ _ _ (or_introl eq_refl)).
      - destruct y1; try apply Forall_nil; destruct y2; try apply Forall_nil. apply ONE, root_fits; auto.
        + apply small_fits, small_fits, (AO _ _ _ (or_introl eq_refl)).
        + apply (AM _ _ _ (or_intror (or_introl eq_refl))).
      - destruct y1; try apply Forall_nil; destruct y2; apply Forall_nil. }
    destruct (String.eqb name "\overline") eqn:EO.
    { apply String.eqb_eq in EO. rewrite (B2 (ltac:(now rewrite EO))).
      destruct l as [|y1 l]; try apply Forall_nil. destruct y1; try apply Forall_nil. apply ONE, over_fits; auto. apply (AM _ _ _ (or_introl eq_refl)). }
    apply Z, symbol_fits.
  - intros w m typ T. cbn [shapes bars]. apply FM; [cbn; auto|auto].
  - intros w m typ T. cbn [shapes bars]. apply ONE, framed_fits, letters_fit.
  - intros w m typ T. cbn [shapes bars]. induction (letters s) as [|x xs IH]; [constructor|]. cbn [flat_map]. apply Forall_app. split; [apply symbol_fits|exact IH].
  - intros w m typ T. cbn [shapes bars]. destruct m; [|apply ONE; eapply mark_fits; reflexivity].
    destruct (one_of spacing_names s); [apply ONE, space_fits|apply symbol_fits].
Qed.
Lemma picture_fits l : fits (picture_of M expr size dpi l) (x_h (row M (map fst (flat_map (shapes M expr size dpi true false "rm") l))))
  (x_d (row M (map fst (flat_map (shapes M expr size dpi true false "rm") l)))) (bars_of l).
Proof.
  unfold picture_of, box_of. cbn [snd]. apply row_fits. rewrite bars_most.
  destruct (shapes_fit (NList l)) as [H _]. exact (H true false "rm" (or_introl eq_refl)).
Qed.
End Room.
