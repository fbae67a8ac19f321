(** C91: the sizes of typeset expressions in float64 (ApxSpec.v). *)
From Coq Require Import ZArith String Ascii List Bool Lia QArith Qcanon Qreals Reals Lqa Lra Psatz.
From Flocq Require Import Core.Core IEEE754.BinarySingleNaN IEEE754.PrimFloat.
From Verif Require Import Utf8 Token Ast SetTable Parser Symbols PropSymbols Arith Exact ExactFacts Box PropParse
  Mtex MtexFacts PropRead GeomSpec GeomFacts ReadSpec TreeSpec SizeSpec PropSize Float64Facts PropError PropCost Apx SizeApx ApxSpec.
From Coq Require Import Floats Lra.
Import SizeSpec ApxSpec.
Import ListNotations.
Local Open Scope string_scope.
Local Open Scope list_scope.
Local Open Scope R_scope.

Lemma size_ap : forall (S : Type) (be : @backend float64 S) range parse_float uni_letter (M : measures) expr l
    (B : R) (size dpi : Qc) (fsize fdpi : float) s t err s',
  fair range -> 1 <= B <= 2 ^ 900 -> measured64 B M size dpi fsize fdpi be parse_float ->
  IZR (zlen expr) + 2 <= 2 ^ 19 ->
  parse_expr uni_letter expr = Ok l -> Forall unresized l ->
  mtex_parse uni_letter range be parse_float expr fsize fdpi s = Some (LOk ((t, err), s')) ->
  let n := IZR (zlen expr) + 2 in let x := size_of_expression M expr size dpi l in
  let ok v q := finite v /\ Rabs (R_of v - real q) <= B * n ^ 2 / 2 ^ 40 /\ Rabs (real q) <= 64 * B * n in
  ok (t_width t) (x_w x) /\ ok (t_height t) (x_h x) /\ ok (t_depth t) (x_d x).
Proof.
  intros * FR [B1 BM] MB LN P U E. apply parse_inv in E as (l0 & P' & E). rewrite P in P'. injection P' as <-.
  pose proof (parsed_cost _ _ _ P) as PC. pose proof (total_nonneg cost l cost_nonneg) as T0. pose proof (zlen_nonneg expr) as Z0.
  intros n x ok. subst n x ok. cbv beta zeta.
  set (n := zlen expr) in *. set (N := 128 * (IZR n + 2)). apply IZR_le in PC, Z0, T0.
  assert (BM' : B <= bpow radix2 900) by (change 900%Z with (Z.of_nat 900); rewrite bpow_nat; exact BM).
  assert (NM : N <= bpow radix2 26).
  { unfold N. replace (bpow radix2 26) with (128 * 2 ^ 19) by (change (bpow radix2 26) with (IZR 67108864); lra). lra. }
  assert (FT : fits N (1 + PropCost.total cost l)) by (unfold fits, N; rewrite plus_IZR; lra).
  apply (typeset_size range be parse_float M expr size dpi fsize fdpi B N FR MB B1 BM' ltac:(unfold N; lra) NM ltac:(unfold N; lra) l s t s' U FT) in E
    as (b & gs & l' & nh & nd & -> & _ & L & AW & AH & AD & _).
  set (m := 64 * IZR (1 + PropCost.total cost l)) in *.
  assert (M0 : 0 <= m <= 64 * (IZR n + 2)) by (unfold m; rewrite plus_IZR; lra).
  assert (K : forall k x q, 0 <= k <= m -> ap B N k x q -> finite x /\ Rabs (R_of x - q) <= B * (IZR n + 2) ^ 2 / 2 ^ 40 /\ Rabs q <= 64 * B * (IZR n + 2)).
  { intros k x q K (F & _ & Q & R). split; [exact F|]. split.
    - eapply Rle_trans; [exact R|].
      replace (B * (IZR n + 2) ^ 2 / 2 ^ 40) with ((64 * (IZR n + 2)) * (N * B * u)) by (unfold N; rewrite u_val; field).
      apply Rmult_le_compat_r; [|lra]. pose proof u_pos. unfold N. repeat apply Rmult_le_pos; lra.
    - eapply Rle_trans; [exact Q|]. replace (64 * B * (IZR n + 2)) with (64 * (IZR n + 2) * B) by ring. apply Rmult_le_compat_r; lra. }
  pose proof (ap_ge _ _ _ _ _ AH). pose proof (ap_ge _ _ _ _ _ AD).
  split; [|split]; cbn [t_width t_height t_depth]; eapply K; try eassumption; lra.
Qed.

(** The box made for an expression without \binom and \sqrt has, up to rounding, the
    size that follows from the expression and the measurements of its glyphs: with
    measurements at most [B], the error of an expression of [n] bytes is at most
    [B (n+2)^2 / 2^40]. *)
Theorem C91_size : forall (S : Type) (be : @backend float64 S) range parse_float uni_letter (M : measures) expr l
    (B : R) (size dpi : Qc) (fsize fdpi : float) s t err s',
  fair range -> 1 <= B <= 2 ^ 900 -> measured64 B M size dpi fsize fdpi be parse_float ->
  IZR (zlen expr) + 2 <= 2 ^ 19 ->
  parse_expr uni_letter expr = Ok l -> Forall unresized l ->
  mtex_parse uni_letter range be parse_float expr fsize fdpi s = Some (LOk ((t, err), s')) ->
  near (B * (IZR (zlen expr) + 2) ^ 2 / 2 ^ 40) t (size_of_expression M expr size dpi l).
Proof.
  intros * FR BB MB LN P U E. destruct (size_ap _ _ _ _ _ _ _ _ _ _ _ _ _ _ _ _ _ FR BB MB LN P U E) as ((W1 & W2 & _) & (H1 & H2 & _) & (D1 & D2 & _)).
  unfold near. auto 7.
Qed.
(** ... and no dimension of the box is larger than 65 B (n+2). *)
Theorem C91_bound : forall (S : Type) (be : @backend float64 S) range parse_float uni_letter (M : measures) expr l
    (B : R) (size dpi : Qc) (fsize fdpi : float) s t err s',
  fair range -> 1 <= B <= 2 ^ 900 -> measured64 B M size dpi fsize fdpi be parse_float ->
  IZR (zlen expr) + 2 <= 2 ^ 19 ->
  parse_expr uni_letter expr = Ok l -> Forall unresized l ->
  mtex_parse uni_letter range be parse_float expr fsize fdpi s = Some (LOk ((t, err), s')) ->
  Forall (fun v => finite v /\ Rabs (R_of v) <= 65 * B * (IZR (zlen expr) + 2)) [t_width t; t_height t; t_depth t].
Proof.
  intros * FR BB MB LN P U E. destruct (size_ap _ _ _ _ _ _ _ _ _ _ _ _ _ _ _ _ _ FR BB MB LN P U E) as (W & H & D).
  pose proof (zlen_nonneg expr) as Z0. apply IZR_le in Z0. set (n := IZR (zlen expr) + 2) in *.
  assert (K : forall v q, finite v /\ Rabs (R_of v - real q) <= B * n ^ 2 / 2 ^ 40 /\ Rabs (real q) <= 64 * B * n -> finite v /\ Rabs (R_of v) <= 65 * B * n).
  { intros v q (F & R1 & R2). split; [exact F|]. replace (R_of v) with ((R_of v - real q) + real q) by ring. eapply Rle_trans; [apply Rabs_triang|].
    assert (N0 : 2 <= n) by (unfold n; lra). assert (BN : 0 <= B * n) by (apply Rmult_le_pos; lra).
    assert (B * n ^ 2 / 2 ^ 40 <= B * n); [|lra]. replace (B * n ^ 2 / 2 ^ 40) with (B * n * (n / 2 ^ 40)) by field.
    rewrite <- (Rmult_1_r (B * n)) at 2. apply Rmult_le_compat_l; [exact BN|]. lra. }
  repeat (constructor; [eapply K; eassumption|]). constructor.
Qed.

(** ** Case: squares of 16 pixels, 12 above and 4 below the baseline *)
Definition squares64 : @backend float64 unit :=
  mk_backend unit (fun _ _ _ _ _ => mret 0%float)
    (fun _ _ _ _ => mret (mk_metrics (A:=float64) 16 16 16 0 16 (-4) 12 12 false)%float)
    (fun _ _ => mret 16%float) (fun _ _ => mret 2%float).
Definition two64 (v : string) : option float := if String.eqb v "2" then Some 2%float else None.
Definition squares16 : measures := mk_measures (fun _ _ _ => Q2Qc 16) (fun _ _ _ => Q2Qc 12) (fun _ _ _ => Q2Qc 4)
  (fun _ _ _ => Q2Qc 4) (fun _ _ _ _ => 0%Qc) (fun _ => Q2Qc 2) (fun v => if String.eqb v "2" then Q2Qc 2 else 0%Qc).
Lemma int_reads z x q : Float64.ofZ z = x -> (Z.abs z <= 1024)%Z -> q = Q2Qc (z # 1) -> reads 1024 x q.
Proof.
  intros <- L ->. destruct (ofZ_exact z) as [F V]; [lia|]. assert (R : real (Q2Qc (z # 1)) = IZR z) by (rewrite real_rat; field).
  split; [exact F|]. split; [rewrite V, R; replace (IZR z - IZR z) with 0 by ring; rewrite Rabs_R0; lra|]. rewrite R, <- abs_IZR. now apply IZR_le.
Qed.
Example squares64_measured : measured64 1024 squares16 (Q2Qc 16) (Q2Qc 64) 16%float 64%float squares64 two64.
Proof.
  assert (I : forall z x q, Float64.ofZ z = x -> (Z.abs z <= 1024)%Z -> q = Q2Qc (z # 1) -> finite x /\ R_of x = real q).
  { intros z x q <- L ->. destruct (ofZ_exact z) as [F V]; [lia|]. split; [exact F|]. rewrite V, real_rat. field. }
  unfold measured64. split; [|split; [|split; [|split; [|split; [|split]]]]].
  - apply (I 16%Z); reflexivity || lia.
  - apply (I 64%Z); reflexivity || lia.
  - rewrite real_mult, !real_q. unfold Q2R. cbn. apply Rabs_le. lra.
  - intros sym f m s x s' _ E. cbn [squares64 be_metrics be_kern be_underline] in E. apply ret_ok in E as [-> _]. cbn [m_adv m_iceberg m_height m_width m_ymax m_ymin squares16 adv up down mid].
    split; [apply (int_reads 16); reflexivity || lia|].
    split; [destruct (I 16%Z 16%float (Q2Qc 16)) as [_ V]; try reflexivity; try lia; rewrite V; replace (_ - _) with 0 by ring; rewrite Rabs_R0; pose proof (Rabs_pos (real (Q2Qc 16))); lra|].
    split; [apply (int_reads 12); reflexivity || lia|].
    split; [apply (int_reads 16); [reflexivity|lia|apply Qc_is_canon; reflexivity]|]. split; [exists (Q2Qc 16); apply (int_reads 16); reflexivity || lia|].
    exists (Q2Qc 12), (Q2Qc (-4 # 1)). split; [apply (int_reads 12); reflexivity || lia|]. split; [apply (int_reads (-4)); reflexivity || lia|]. apply Qc_is_canon. reflexivity.
  - intros f1 s1 f2 s2 s x s' _ _ E. cbn [squares64 be_metrics be_kern be_underline] in E. apply ret_ok in E as [-> _]. apply (int_reads 0); reflexivity || lia.
  - intros f s x s' _ E. cbn [squares64 be_metrics be_kern be_underline] in E. apply ret_ok in E as [-> _]. split; [apply (int_reads 2); reflexivity || lia|].
    split; [destruct (I 2%Z 2%float (Q2Qc 2)) as [_ V]; try reflexivity; try lia; rewrite V, real_rat; lra|]. unfold Qcle, Qle. cbn. lia.
  - intros v x. unfold two64. cbn [squares16 number]. destruct (String.eqb v "2"); [|discriminate]. intros E.
    assert (x = 2%float) as -> by congruence. destruct (I 2%Z 2%float (Q2Qc 2)) as [F V]; try reflexivity; try lia.
    split; [exact F|]. split; [exact V|]. split; [rewrite real_q; unfold Q2R; cbn; apply Rabs_le; lra|].
    unfold em. cbn [squares16 adv]. rewrite real_mult, !real_q. unfold Q2R. cbn. apply Rabs_le. lra.
Qed.
Definition c91_expr : string := "a $x+\frac{2b}{\sin y}\hspace{2}\overline{1.5}$".
Definition c91_tree : list node := match parse_expr ascii_only c91_expr with Ok l => l | _ => [] end.
Definition c91_dims : option (float * float * float) :=
  match mtex_parse ascii_only id_range squares64 two64 c91_expr 16%float 64%float tt with
  | Some (LOk (t, None, _)) => Some (t_width t, t_height t, t_depth t) | _ => None end.
Definition c91_spec : list Q := let e := size_of_expression squares16 c91_expr (Q2Qc 16) (Q2Qc 64) c91_tree in [this (x_w e); this (x_h e); this (x_d e)].
(** The sizes 199.2, 19.2 and 13.2 are no float64 numbers. *)
Example C91_case : parse_expr ascii_only c91_expr = Ok c91_tree /\ Forall unresized c91_tree /\ (IZR (zlen c91_expr) + 2 <= 2 ^ 19) /\
  c91_dims = Some (0x1.8e66666666666p+7, 0x1.3333333333333p+4, 0x1.a666666666666p+3)%float /\ c91_spec = [996 # 5; 96 # 5; 66 # 5]%Q.
Proof.
  split; [vm_compute; reflexivity|]. split; [vm_compute; repeat (constructor || discriminate)|]. split; [change (zlen c91_expr) with (Z.of_nat (String.length c91_expr)); cbn; lra|]. split; vm_compute; reflexivity.
Qed.
