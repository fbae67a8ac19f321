(** C96: typesetting writes nothing to the log. *)
From Coq Require Import ZArith String List Bool Reals Lia Lra QArith Qcanon.
From Flocq Require Import Core.Core IEEE754.BinarySingleNaN IEEE754.PrimFloat.
From Verif Require Import Utf8 Token Ast Parser Arith Exact OrderLaws Box Warn Mtex MtexFacts PropCost Float64Facts PropError Apx TtfRound PropMtex PropPack
  Ttf TtfSpec TtfFacts PropTtf SizeSpec ApxSpec SizeTtfSpec Render PropRender LogSpec LogMtex LogFacts LogQuiet LogFloat LogRoot.
From Coq Require Import Floats Lra.
Import ListNotations.
Local Open Scope string_scope.
Local Open Scope list_scope.
Local Open Scope Z_scope.

(** Reading the log off a run does not change the run. *)
Theorem C96_same : forall (A : arith) (S : Type) U range (be : @backend A S) parse_float expr size dpi s,
  fst (parse_log U range be parse_float expr size dpi s) = mtex_parse U range be parse_float expr size dpi s.
Proof. intros. apply parse_log_fst. Qed.

Lemma log_of {A : arith} {S : Type} U range (be : @backend A S) parse_float expr size dpi s :
  (exists Inv : S -> Prop, Inv s /\ forall l, parse_expr U expr = Ok l -> exists Q, silent Inv (w_typeset range be parse_float expr l size dpi) Q) ->
  snd (parse_log U range be parse_float expr size dpi s) = [].
Proof.
  intros (Inv & Is & H). unfold parse_log. destruct (parse_expr U expr) as [l| |]; try reflexivity. destruct (H l eq_refl) as [Q K]. cbn [snd].
  destruct (silent_bind _ (fun t => wret (t, @None string)) _ (fun _ => True) K (fun x _ => silent_ret _ _ Logic.I) s Is) as [E _]. exact E.
Qed.

Lemma rootless_allowed n : rootless n -> allowed True False n.
Proof.
  induction n as [|l IH|nm l IH|a l b IH|a l b IH|p t|d a l b IH|p t|p t|p t|p x IH|p x IH] using node_ind'; cbn [rootless allowed]; auto;
    try (intros [N R]; split; [destruct nm as [[p name]|]; auto|]; revert R); try intros R;
    (induction IH as [|x l X IH IHl]; cbn [fold_right] in *; [exact Logic.I|destruct R as [R1 R2]; split; auto]).
Qed.
Lemma all_allowed n : allowed True True n.
Proof.
  induction n as [|l IH|nm l IH|a l b IH|a l b IH|p t|d a l b IH|p t|p t|p t|p x IH|p x IH] using node_ind'; cbn [allowed]; auto;
    try (split; [destruct nm as [[p name]|]; auto|]);
    (induction IH as [|x l X IH IHl]; cbn [fold_right] in *; [exact Logic.I|split; auto]).
Qed.
Lemma unresized_allowed n : unresized n -> allowed False False n.
Proof.
  induction n as [|l IH|nm l IH|a l b IH|a l b IH|p t|d a l b IH|p t|p t|p t|p x IH|p x IH] using node_ind'; cbn [unresized allowed]; auto;
    try (intros [N R]; split; [destruct nm as [[p name]|]; auto; destruct N; auto|]; revert R); try intros R;
    (induction IH as [|x l X IH IHl]; cbn [fold_right] in *; [exact Logic.I|destruct R as [R1 R2]; split; auto]).
Qed.
Lemma allowed_roots (a r r' : Prop) n : (r -> r') -> allowed a r n -> allowed a r' n.
Proof.
  intros H. induction n as [|l IH|nm l IH|p l b IH|p l b IH|p t|d p l b IH|p t|p t|p t|p x IH|p x IH] using node_ind'; cbn [allowed]; auto;
    try (intros [N R]; split; [destruct nm as [[p name]|]; auto; destruct N as [[N|N] N2]; auto|]; revert R); try intros R;
    (induction IH as [|x l X IH IHl]; cbn [fold_right] in *; [exact Logic.I|destruct R as [R1 R2]; split; auto]).
Qed.
Lemma qc_mul a b : (0 <= a -> 0 <= b -> 0 <= a * b)%Qc.
Proof. intros A0 B0. rewrite <- (Qcmult_0_l b). now apply Qcmult_le_compat_r. Qed.
Section Exact.
Context {S : Type}.
Variable be : @backend exact S.
Variable parse_float : string -> option xq.
Variables size dpi : xq.
Hypothesis C : calm rational be parse_float size dpi.
Let met : forall sym f d m s x s', be_metrics be sym f d m s = LOk (x, s') ->
  PX 1 (m_adv x) /\ PX 1 (m_width x) /\ PX 1 (m_iceberg x) /\ PX 1 (m_height x) /\ PX 1 (m_ymax x) /\ PX 1 (m_ymin x) /\
  (forall v y, parse_float v = Some y -> PX 1 (fmul exact (m_adv x) y)).
Proof.
  intros * E. pose proof (calm_metrics _ _ _ _ _ C _ _ _ _ _ _ _ E) as H.
  assert (R : forall x, rational x -> PX 1 x) by (intros z Z; split; [lia|exact Z]).
  inversion H as [|? ? A1 H1]; subst. inversion H1 as [|? ? A2 H2]; subst. inversion H2 as [|? ? A3 H3]; subst.
  inversion H3 as [|? ? A4 H4]; subst. inversion H4 as [|? ? A5 H5]; subst. inversion H5 as [|? ? A6 H6]; subst.
  refine (conj (R _ A1) (conj (R _ A3) (conj (R _ A6) (conj (R _ A2) (conj (R _ A5) (conj (R _ A4) _)))))). intros v y V. destruct (calm_numbers _ _ _ _ _ C _ _ V) as [q ->]. destruct A1 as [a ->]. split; [lia|]. now eexists.
Qed.
Let krn : forall f a g b d s x s', be_kern be f a g b d s = LOk (x, s') -> PX 1 x.
Proof. intros * E. split; [lia|]. eapply (calm_kern _ _ _ _ _ C), E. Qed.
Let lin : exists line : @Box.font exact -> xq -> xq, forall f d s x s', be_underline be f d s = LOk (x, s') -> x = line f d /\ PX 1 x /\ le (A := exact) f0 x.
Proof.
  destruct (calm_line _ _ _ _ _ C) as [line H]. exists line. intros * E. apply H in E as (E & R & N). split; [exact E|]. split; [split; [lia|exact R]|exact N].
Qed.
Let siz : PX 1 (fdiv exact (fmul exact size dpi) (fofZ exact 1200)) /\ le f0 (fdiv exact (fmul exact size dpi) (fofZ exact 1200)).
Proof.
  destruct (calm_size _ _ _ _ _ C) as ([a Ea] & [b Eb] & A0 & B0). rewrite Ea, Eb in *.
  apply exact_le in A0, B0. split; [split; [lia|]; now eexists|]. apply exact_le.
  change (0 <= a)%Qc in A0. change (0 <= b)%Qc in B0. change (0 <= a * b * / Q2Qc (inject_Z 1200))%Qc.
  apply qc_mul; [apply qc_mul; assumption|]. now vm_compute.
Qed.
Lemma exact_quiet U range x s (roots : Prop) : (roots -> sign_grows be) ->
  (roots \/ forall l, parse_expr U x = Ok l -> Forall rootless l) -> snd (parse_log U range be parse_float x size dpi s) = [].
Proof.
  intros G R. apply log_of. exists any. split; [exact Logic.I|]. intros l P. destruct lin as [line Hl]. pose proof (total_nonneg cost l cost_nonneg) as T.
  eexists. eapply (typeset_P PX (64 * PropCost.total cost l + 1500) (exact_laws _) exact_order ltac:(lia) range be any (any_keeps be) parse_float x size dpi any True (fun _ _ => Logic.I) (fun _ _ _ _ => Logic.I)) with (line := line) (roots := roots).
  - intros * _ _. apply met.
  - intros * _ _ _. apply krn.
  - intros * _ _. apply Hl.
  - exact siz.
  - intros r root body st kr kb Fb Fr As. exact (root_silent be parse_float size dpi line met krn Hl siz (G r) root body st kr kb Fb Fr As).
  - destruct R as [R|R]; [apply Forall_forall; intros n _; generalize (all_allowed n); apply allowed_roots; auto|eapply Forall_impl; [|apply R, P]; intros n N; apply rootless_allowed in N; revert N; apply allowed_roots; tauto].
  - lia.
Qed.
End Exact.

(** In exact arithmetic, an expression without roots is set without a word... *)
Theorem C96_exact : forall (S : Type) U range (be : @backend exact S) parse_float x size dpi s,
  calm rational be parse_float size dpi ->
  (forall l, parse_expr U x = Ok l -> Forall rootless l) ->
  snd (parse_log U range be parse_float x size dpi s) = [].
Proof. intros * C R. apply (exact_quiet _ _ _ _ C U range x s False); [easy|now right]. Qed.
(** ... and one with roots too, if the radical sign grows with its font. *)
Theorem C96_roots : forall (S : Type) U range (be : @backend exact S) parse_float x size dpi s,
  calm rational be parse_float size dpi -> sign_grows be ->
  snd (parse_log U range be parse_float x size dpi s) = [].
Proof. intros * C G. apply (exact_quiet _ _ _ _ C U range x s True); [easy|now left]. Qed.

(** In float64, with no number of magnitude over 2^450: then no dimension overflows, and
    no rounding error shows in the log. *)
Section Float.
Local Open Scope R_scope.
Lemma moderate_mul x y : moderate x -> moderate y -> P64 1 (x * y)%float /\ R_of (x * y)%float = rnd (R_of x * R_of y).
Proof.
  intros [Fx Bx] [Fy By]. assert (K : Rabs (R_of x * R_of y) <= IZR 1 * unit).
  { rewrite Rabs_mult, Rmult_1_l. unfold unit. change 900%Z with (450 + 450)%Z. rewrite bpow_plus. apply Rmult_le_compat; try apply Rabs_pos; assumption. }
  destruct (mul_rnd x y Fx Fy (unit_range 1 _ K ltac:(lia))) as [G E]. split; [|exact E]. split; [lia|]. split; [exact G|]. rewrite E. apply rnd_unit; [lia|exact K].
Qed.
Lemma moderate_P x : moderate x -> P64 1 x.
Proof.
  intros [Fx Bx]. split; [lia|]. split; [exact Fx|]. rewrite Rmult_1_l. eapply Rle_trans; [exact Bx|]. apply bpow_le. lia.
Qed.
Lemma moderate_size size dpi : moderate size -> moderate dpi -> fltb float64 size f0 = false -> fltb float64 dpi f0 = false ->
  P64 1 (size * dpi / Float64.ofZ 1200)%float /\ le (A := float64) f0 (size * dpi / Float64.ofZ 1200)%float.
Proof.
  intros Ms Md S0 D0. destruct (moderate_mul _ _ Ms Md) as [(_ & F & B) V]. destruct zero_fin as [Fz Vz]. destruct Ms as [Fs _], Md as [Fd _].
  apply (le_R _ _ Fz Fs) in S0. apply (le_R _ _ Fz Fd) in D0. rewrite Vz in S0, D0.
  destruct (ofZ_exact 1200 ltac:(reflexivity)) as [F2 V2].
  assert (K : Rabs (R_of (size * dpi)%float / R_of (Float64.ofZ 1200)) <= IZR 1 * unit).
  { rewrite V2. unfold Rdiv. rewrite Rabs_mult. rewrite (Rabs_right (/ 1200)) by lra. pose proof (Rabs_pos (R_of (size * dpi)%float)). lra. }
  destruct (div_rnd (size * dpi)%float (Float64.ofZ 1200) F ltac:(rewrite V2; lra) (unit_range _ _ K ltac:(lia))) as [G E].
  split; [split; [lia|]; split; [exact G|]; rewrite E; apply rnd_unit; [lia|exact K]|].
  apply le_R; [exact Fz|exact G|]. rewrite Vz, E. apply rnd_pos. rewrite V2, V. apply Rmult_le_pos; [apply rnd_pos, Rmult_le_pos; assumption|lra].
Qed.
End Float.
Theorem C96_float : forall (S : Type) U range (be : @backend float64 S) parse_float x size dpi s,
  calm moderate be parse_float size dpi -> zlen x <= 2 ^ 40 ->
  (forall l, parse_expr U x = Ok l -> Forall rootless l) ->
  snd (parse_log U range be parse_float x size dpi s) = [].
Proof.
  intros * C Z R. apply log_of. exists any. split; [exact Logic.I|]. intros l P. pose proof (parsed_cost _ _ _ P) as T. destruct (calm_line _ _ _ _ _ C) as [line Hl].
  destruct (calm_size _ _ _ _ _ C) as (Ms & Md & S0 & D0).
  eexists. eapply (typeset_P P64 LIM float_laws float64_order ltac:(unfold LIM; lia) range be any (any_keeps be) parse_float x size dpi any True (fun _ _ => Logic.I) (fun _ _ _ _ => Logic.I)) with (line := line) (roots := False).
  - intros * _ _ E. pose proof (calm_metrics _ _ _ _ _ C _ _ _ _ _ _ _ E) as H.
    inversion H as [|? ? A1 H1]; subst. inversion H1 as [|? ? A2 H2]; subst. inversion H2 as [|? ? A3 H3]; subst.
    inversion H3 as [|? ? A4 H4]; subst. inversion H4 as [|? ? A5 H5]; subst. inversion H5 as [|? ? A6 H6]; subst.
    pose proof moderate_P as Q. refine (conj (Q _ A1) (conj (Q _ A3) (conj (Q _ A6) (conj (Q _ A2) (conj (Q _ A5) (conj (Q _ A4) _)))))).
    intros v y V. apply moderate_mul; [exact A1|eapply (calm_numbers _ _ _ _ _ C), V].
  - intros * _ _ _ E. apply moderate_P. eapply (calm_kern _ _ _ _ _ C), E.
  - intros * _ _ E. apply Hl in E as (E & M & N). split; [exact E|]. split; [now apply moderate_P|exact N].
  - now apply moderate_size.
  - intros [].
  - eapply Forall_impl; [exact rootless_allowed|now apply R].
  - unfold LIM. lia.
Qed.

(** ** Cases *)
Definition log_set : string := "ab $\frac{1}{2}+\overline{x}-\binom{n}{k}\hspace{3}$".
Ltac all_rootless := let l := fresh in let P := fresh in intros l P; vm_compute in P;
  assert (Q : l = l) by reflexivity; injection P as <-; repeat (constructor; [cbn; repeat split; try exact Logic.I; discriminate|]); constructor.
Lemma log_set_rootless : forall l, parse_expr ascii_only log_set = Ok l -> Forall rootless l.
Proof. all_rootless. Qed.

(** float64: constant metrics. *)
Lemma const_moderate z : Z.abs z < 2 ^ 53 -> moderate (Float64.ofZ z).
Proof.
  intros H. destruct (ofZ_exact z H) as [F V]. split; [exact F|]. rewrite V, <- abs_IZR. eapply Rle_trans; [apply IZR_le, Z.lt_le_incl, H|].
  change (2 ^ 53) with (Zpower radix2 53). rewrite IZR_Zpower by lia. apply bpow_le. lia.
Qed.
Definition log64 : @backend float64 Datatypes.unit :=
  mk_backend Datatypes.unit (fun _ _ _ _ _ => mret (Float64.ofZ (-1)))
    (fun c ft _ _ => mret (mk_metrics (A:=float64) (Float64.ofZ 6) (Float64.ofZ 7) (Float64.ofZ 6) (Float64.ofZ 0) (Float64.ofZ 6) (Float64.ofZ (-2)) (Float64.ofZ 5) (Float64.ofZ 5) false))
    (fun _ _ => mret (Float64.ofZ 5)) (fun _ _ => mret (Float64.ofZ 1)).
Ltac small := first [apply (const_moderate 6); reflexivity|apply (const_moderate 7); reflexivity|apply (const_moderate (-2)); reflexivity|
  apply (const_moderate 5); reflexivity|apply (const_moderate (-1)); reflexivity|apply (const_moderate 1); reflexivity|apply (const_moderate 3); reflexivity|
  apply (const_moderate 10); reflexivity|apply (const_moderate 72); reflexivity].
Lemma log64_calm : calm moderate log64 (fun _ => Some (Float64.ofZ 3)) (Float64.ofZ 10) (Float64.ofZ 72).
Proof.
  constructor.
  - intros sym f d m s x s' [= <- _]. cbn [m_adv m_height m_width m_ymin m_ymax m_iceberg].
    repeat (apply Forall_cons; [small|]). apply Forall_nil.
  - intros f a g b d s x s' [= <- _]. small.
  - exists (fun _ _ => Float64.ofZ 1). intros f d s x s' [= <- _]. split; [reflexivity|]. split; [small|reflexivity].
  - intros v x [= <-]. small.
  - split; [small|]. split; [small|]. now split.
Qed.
Definition returns {A : arith} (r : option (lres ((@Box.tnode A * option string) * Datatypes.unit))) : bool :=
  match r with Some (LOk ((_, None), _)) => true | _ => false end.
Example C96_float_case :
  snd (parse_log ascii_only id_range log64 (fun _ => Some (Float64.ofZ 3)) log_set (Float64.ofZ 10) (Float64.ofZ 72) tt) = [] /\
  returns (mtex_parse ascii_only id_range log64 (fun _ => Some (Float64.ofZ 3)) log_set (Float64.ofZ 10) (Float64.ofZ 72) tt) = true.
Proof.
  split; [|vm_compute; reflexivity]. apply C96_float; [exact log64_calm|vm_compute; discriminate|exact log_set_rootless].
Qed.

(** Exact arithmetic: glyphs of a fixed size, or of the size of their font. *)
Definition q (z : Z) : Qc := Q2Qc (inject_Z z).
Definition fixed : @backend exact Datatypes.unit :=
  mk_backend Datatypes.unit (fun _ _ _ _ _ => mret (Fin (q (-1))))
    (fun c ft _ _ => mret (mk_metrics (A:=exact) (Fin (q 6)) (Fin (q 7)) (Fin (q 6)) (Fin (q 0)) (Fin (q 6)) (Fin (q (-2))) (Fin (q 5)) (Fin (q 5)) false))
    (fun _ _ => mret (Fin (q 5))) (fun _ _ => mret (Fin (q 1))).
Definition growing : @backend exact Datatypes.unit :=
  mk_backend Datatypes.unit (fun _ _ _ _ _ => mret (Fin (q (-1))))
    (fun c ft _ _ => match f_size ft with
                     | Fin z => if Qc_eq_dec z 0 then mpanic "no size" else mret (mk_metrics (A:=exact) (Fin z) (Fin z) (Fin z) (Fin 0) (Fin z) (Fin 0) (Fin z) (Fin z) false)
                     | _ => mpanic "no size"
                     end)
    (fun _ _ => mret (Fin (q 5))) (fun _ _ => mret (Fin (q 1))).
Definition three : string -> option xq := fun _ => Some (Fin (q 3)).
Lemma fixed_calm : calm rational fixed three (Fin (q 10)) (Fin (q 72)).
Proof.
  constructor.
  - intros sym f d m s x s' [= <- _]. repeat (constructor; [now eexists|]). constructor.
  - intros f a g b d s x s' [= <- _]. now eexists.
  - exists (fun _ _ => Fin (q 1)). intros f d s x s' [= <- _]. split; [reflexivity|]. split; [now eexists|reflexivity].
  - intros v x [= <-]. now eexists.
  - split; [now eexists|]. split; [now eexists|]. now split.
Qed.
Lemma growing_metrics sym f d m s x s' : be_metrics growing sym f d m s = LOk (x, s') ->
  exists z, f_size f = Fin z /\ z <> 0%Qc /\ x = mk_metrics (A:=exact) (Fin z) (Fin z) (Fin z) (Fin 0) (Fin z) (Fin 0) (Fin z) (Fin z) false.
Proof.
  cbn [growing be_metrics]. destruct (f_size f) as [z| | |]; try discriminate. destruct (Qc_eq_dec z 0) as [E|E]; [discriminate|].
  intros H. exists z. split; [reflexivity|]. split; [exact E|]. now inversion H.
Qed.
Lemma growing_calm : calm rational growing three (Fin (q 10)) (Fin (q 72)).
Proof.
  constructor.
  - intros * E. apply growing_metrics in E as (z & _ & _ & ->). repeat (constructor; [now eexists|]). constructor.
  - intros f a g b d s x s' [= <- _]. now eexists.
  - exists (fun _ _ => Fin (q 1)). intros f d s x s' [= <- _]. split; [reflexivity|]. split; [now eexists|reflexivity].
  - intros v x [= <-]. now eexists.
  - split; [now eexists|]. split; [now eexists|]. now split.
Qed.
Lemma growing_sign : sign_grows growing.
Proof.
  intros f d s x s' E. apply growing_metrics in E as (z & Z & N & ->). split; [cbn; intros H; apply N; congruence|].
  intros k s1 y s2 E. apply growing_metrics in E as (z' & Z' & _ & ->). cbn [f_size m_height] in *. rewrite Z in Z'. symmetry. exact Z'.
Qed.
Definition log_root : string := "$\sqrt[3]{x+\sqrt{y}}$".
Example C96_exact_case :
  snd (parse_log ascii_only id_range fixed three log_set (Fin (q 10)) (Fin (q 72)) tt) = [] /\
  snd (parse_log ascii_only id_range growing three log_root (Fin (q 10)) (Fin (q 72)) tt) = [] /\
  returns (mtex_parse ascii_only id_range growing three log_root (Fin (q 10)) (Fin (q 72)) tt) = true.
Proof.
  split; [apply C96_exact; [exact fixed_calm|exact log_set_rootless]|].
  split; [apply C96_roots; [exact growing_calm|exact growing_sign]|]. vm_compute. reflexivity.
Qed.
(** A radical sign that does not grow is too small for its bar, and the log tells. *)
Example C96_fixed_sign : snd (parse_log ascii_only id_range fixed three "$\sqrt{x}$" (Fin (q 10)) (Fin (q 72)) tt) = ["underfull VList"].
Proof. vm_compute. reflexivity. Qed.
