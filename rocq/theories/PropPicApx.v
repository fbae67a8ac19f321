(** C97: pictures in float64 (PicApxSpec.v). *)
From Coq Require Import ZArith String Ascii List Bool Lia QArith Qcanon Qreals Reals Lqa Lra Psatz.
From Flocq Require Import Core.Core IEEE754.BinarySingleNaN IEEE754.PrimFloat.
From Verif Require Import Utf8 Token Ast SetTable Parser Symbols PropSymbols Arith Exact ExactFacts Box Ship ShipSpec ShipFacts PropShip PropParse
  Mtex MtexFacts PropMtex PropRead GeomSpec GeomFacts ReadSpec TreeSpec SizeSpec PropSize Float64Facts PropError PropCost PicSpec PropPic
  Apx SizeApx ApxSpec PropApx PicApxSpec PicApx PicApx2 PicApx3.
From Verif Require Ttf TtfSpec TtfExact TtfRound PropTtf PropFormula SizeTtfSpec PropSizeTtf MtexHoare RoomFacts.
From Coq Require Import Floats Lra.
Import SizeSpec ApxSpec.
Import ListNotations.
Local Open Scope string_scope.
Local Open Scope list_scope.
Local Open Scope R_scope.

(** Shipping the box of an expression without \binom and \sqrt at ([rox], [roy]),
    its upper left corner, works and draws the picture of the expression: with
    measurements and position at most [B], the error for an expression of [n] bytes
    with fractions and overlines nested [d] deep is at most
    [((n+2) (d+1))^2 B / 2^31] in every coordinate, plus half a pixel for each
    numerator, denominator and overlined expression it is in. *)
Theorem C97_picture : forall (S : Type) (be : @backend float64 S) range parse_float uni_letter (M : measures) expr l
    (B rox roy : R) (size dpi : Qc) (fsize fdpi ox oy : float) s t err s',
  fair range -> 1 <= B <= 2 ^ 900 -> measured64 B M size dpi fsize fdpi be parse_float -> Rabs (real size) <= B ->
  finite ox -> R_of ox = rox -> Rabs rox <= B -> finite oy -> R_of oy = roy -> Rabs roy <= B ->
  parse_expr uni_letter expr = Ok l -> Forall unresized l ->
  let X := (IZR (zlen expr) + 2) * (INR (levels_of l) + 1) in
  X <= 2 ^ 15 ->
  mtex_parse uni_letter range be parse_float expr fsize fdpi s = Some (LOk ((t, err), s')) ->
  exists t' st, ship_call ox oy t = LOk (t', st) /\
    drawn (X ^ 2 * B / 2 ^ 31) fdpi 1 rox (roy + real (x_h (size_of_expression M expr size dpi l)))
      (picture_of M expr size dpi l) (s_out st).
Proof.
  intros * FR [B1 BM] MB SB FX VX BX FY VY BY P U X XB E.
  destruct (C52_ship_never_panics _ _ _ _ _ _ _ _ _ _ _ _ E ox oy) as (t' & st & SC). exists t', st. split; [exact SC|].
  apply parse_inv in E as (l0 & P' & E). rewrite P in P'. injection P' as <-.
  pose proof (parsed_cost _ _ _ P) as PC. pose proof (total_nonneg cost l cost_nonneg) as T0. pose proof (zlen_nonneg expr) as Z0.
  pose proof (pos_INR (levels_of l)) as D0. apply IZR_le in PC, Z0, T0.
  set (n := IZR (zlen expr)) in *. set (d := levels_of l) in *. set (T := PropCost.total cost l) in *.
  set (N := 2048 * X).
  assert (BM' : B <= bpow radix2 900) by (change 900%Z with (Z.of_nat 900); rewrite bpow_nat; exact BM).
  assert (XE : X = n * INR d + 2 * INR d + (n + 2)) by (unfold X; ring).
  assert (ND : 0 <= n * INR d) by (apply Rmult_le_pos; assumption).
  assert (XN : n + 2 <= X) by lra.
  assert (NM : N <= bpow radix2 26).
  { unfold N. replace (bpow radix2 26) with (2048 * 2 ^ 15) by (change (bpow radix2 26) with (IZR 67108864); lra). lra. }
  assert (N1 : 1 <= N) by (unfold N; lra).
  assert (FT0 : SizeApx.fits N (1 + T)) by (unfold SizeApx.fits, N; rewrite plus_IZR; lra).
  assert (FT : PicApx3.fits N (1 + T)) by (unfold PicApx3.fits, N; rewrite plus_IZR; lra).
  pose proof (typeset_size range be parse_float M expr size dpi fsize fdpi B N FR MB B1 BM' ltac:(unfold N; lra) NM ltac:(unfold N; lra) l s t s' U FT0 E)
    as (b & gs & l' & nh & nd & -> & _ & L & AW & AH & AD & _).
  pose proof (ap_ge _ _ _ _ _ AH) as G1. pose proof (ap_ge _ _ _ _ _ AD) as G2. fold T in L. rewrite plus_IZR in L.
  apply ship_ok_inv in SC as (_ & _ & ->). cbn [s_out]. change (fadd float64 oy (b_height b)) with (oy + b_height b)%float.
  assert (AX : ap B N 1 ox rox) by (apply (ap_exact B N B1 N1); [exact FX|exact VX|lra|lra]).
  assert (AY : ap B N (1 + nh + 1) (oy + b_height b)%float (roy + real (x_h (size_of_expression M expr size dpi l)))).
  { apply (ap_add B N B1 BM' N1 NM); [|exact AH|unfold N; lra]. apply (ap_exact B N B1 N1); [exact FY|exact VY|lra|lra]. }
  destruct (typeset_hb range be parse_float M expr size dpi fsize fdpi B N ox (oy + b_height b)%float rox _ (1 + nh + 1)
    FR MB SB B1 BM' N1 NM ltac:(unfold N; lra) AX AY ltac:(lra) d l s _ s' U (le_n _) FT E) as [_ [_ LK]].
  fold T in LK. rewrite plus_IZR in LK. unfold picture_of.
  assert (BUD : KK d * (256 * (1 + IZR T) + 2) <= 1536 * X - 1280 * (n + 2)).
  { unfold KK. replace (1536 * X - 1280 * (n + 2)) with ((6 * INR d + 1) * (256 * (n + 2))) by (rewrite XE; ring). apply Rmult_le_compat_l; lra. }
  pose proof (ap_zero B N B1 N1) as AZ.
  specialize (LK O b 0%float 0%float 0 0 0 0 AZ AZ ltac:(unfold N; lra) ltac:(unfold N; lra)).
  replace (X ^ 2 * B / 2 ^ 31) with (tol B N) by (unfold tol, N; rewrite u_val; field).
  eapply drawn_eq; [exact LK| |ring|ring]. change (kj 0) with 1%Qc. apply real_1.
Qed.

(** ** Room *)
(** Every call for a figure is at one of the places the figure reaches, up to [e],
    and half a pixel more for each drop it is in. *)
Definition slip (e : R) (m : nat) : R := INR m * (1 / 2 + e).
Definition reached (e : R) (c : @event float64) (p : RoomFacts.spot) : Prop :=
  match c, p with
  | EGlyph _ Y F s _, RoomFacts.Glyph_at s' ft lo hi m => s = s' /\ f_name ft = f_name F /\ f_type ft = f_type F /\
      finite Y /\ (real lo - slip e m - e <= R_of Y /\ R_of Y <= real hi + slip e m + e) /\
      exists z, f_size ft = Fin z /\ about e (f_size F) (real z)
  | ERect _ Y1 _ Y2, RoomFacts.Line_at lo hi m => finite Y1 /\ finite Y2 /\ real lo - slip e m - e <= R_of Y1 /\ R_of Y2 <= real hi + slip e m + e
  | _, _ => False
  end.
Lemma cut_within q : (real (qmin 0 q) <= cut (real q) <= real (qmax 0 q)).
Proof.
  unfold qmin, qmax. destruct (qltb 0 q) eqn:E1, (qltb q 0) eqn:E2;
    try apply qltb_iff in E1; try apply qltb_iff in E2; try apply qltb_false in E1; try apply qltb_false in E2;
    try apply Qclt_le_weak in E1; try apply Qclt_le_weak in E2; apply real_le in E1, E2; rewrite real_0 in *;
    unfold cut, Rmax, Rmin; repeat destruct (Rle_dec _ _); lra.
Qed.
Lemma drawn_reached e dpi f : forall k X Y y1 y2 m c, drawn e dpi (real k) X Y f c ->
  real y1 - slip e m <= Y -> Y <= real y2 + slip e m ->
  Forall (fun c => Exists (reached e c) (RoomFacts.reach k y1 y2 m f)) c.
Proof.
  induction f as [|f IHf g IHg|s ft|w h|dx dy f IH|d f IH|d f IH|f IH]; intros k X Y y1 y2 m c D LO HI; cbn [drawn RoomFacts.reach] in *.
  - rewrite D. constructor.
  - destruct D as (c1 & c2 & -> & D1 & D2). apply Forall_app. split.
    + eapply Forall_impl; [|exact (IHf k X Y y1 y2 m c1 D1 LO HI)]. cbv beta. intros a H. apply Exists_app. now left.
    + eapply Forall_impl; [|exact (IHg k X Y y1 y2 m c2 D2 LO HI)]. cbv beta. intros a H. apply Exists_app. now right.
  - destruct D as (X' & Y' & F & -> & _ & [FY AY] & EN & ET & z & EZ & AF). constructor; [|constructor]. apply Exists_cons_hd.
    cbn [reached]. split; [reflexivity|]. split; [symmetry; exact EN|]. split; [symmetry; exact ET|]. split; [exact FY|].
    apply Rabs_le_inv in AY. split; [split; lra|].
    exists (z * k)%Qc. split; [unfold resize; cbn [f_size]; rewrite EZ; reflexivity|]. now rewrite real_mult, Rmult_comm.
  - destruct D as [[-> _]|(X1 & Y1 & X2 & Y2 & -> & _ & [F1 A1] & _ & [F2 A2])]; [constructor|]. constructor; [|constructor]. apply Exists_cons_hd.
    cbn [reached]. apply Rabs_le_inv in A1, A2. rewrite real_plus, real_mult. split; [exact F1|]. split; [exact F2|]. split; lra.
  - apply (IH k _ _ _ _ m c D); rewrite real_plus, real_mult; lra.
  - destruct D as (dx & _ & D). exact (IH k _ Y y1 y2 m c D LO HI).
  - destruct D as (dy & DY & D). apply Rabs_le_inv in DY. destruct (cut_within (k * d)%Qc) as [C1 C2]. rewrite real_mult in C1, C2.
    apply (IH k _ _ _ _ (S m) c D); unfold slip in *; rewrite real_plus, S_INR; lra.
  - apply (IH (k * Q2Qc (7 # 10))%Qc X Y y1 y2 m c); [now rewrite real_mult|exact LO|exact HI].
Qed.
Lemma reached_stays M e c p a b n : 0 <= e -> reached e c p -> RoomFacts.kept M a b n p ->
  stays64 M ((INR n + 1) * e) (real a - INR n / 2) (real b + INR n / 2) c.
Proof.
  intros E0. assert (SL : forall m, (m <= n)%nat -> slip e m <= INR n * (1 / 2 + e)) by (intros m L; apply le_INR in L; apply Rmult_le_compat_r; lra).
  destruct c as [X Y F s dp|X1 Y1 X2 Y2], p as [s' ft lo hi m|lo hi m]; cbn [reached RoomFacts.kept stays64]; try contradiction.
  - intros (<- & EN & ET & FY & [LO HI] & z & EZ & AF) (H1 & H2 & LM). specialize (SL m LM). exists ft, z. split; [exact EN|]. split; [exact ET|]. split; [exact EZ|].
    assert (N0 : 0 <= INR n * e) by (apply Rmult_le_pos; [apply pos_INR|exact E0]).
    split; [destruct AF as [AF1 AF2]; split; [exact AF1|lra]|]. split; [exact FY|].
    apply real_le in H1, H2. rewrite real_minus in H1. rewrite real_plus in H2. split; lra.
  - intros (F1 & F2 & LO & HI) (H1 & H2 & LM). specialize (SL m LM). apply real_le in H1, H2. split; [exact F1|]. split; [exact F2|]. split; lra.
Qed.
(** Nothing is drawn above the top of the box, and nothing below its bottom, up to
    the error and, for each overline, half a pixel and the error again. *)
Theorem C97_room : forall (S : Type) (be : @backend float64 S) range parse_float uni_letter (M : measures) expr l
    (B : R) (size dpi rox roy : Qc) (fsize fdpi ox oy : float) s t err s',
  fair range -> 1 <= B <= 2 ^ 900 -> measured64 B M size dpi fsize fdpi be parse_float -> regular M size -> (0 <= size)%Qc -> (0 <= dpi)%Qc -> real size <= B ->
  finite ox -> R_of ox = real rox -> Rabs (real rox) <= B -> finite oy -> R_of oy = real roy -> Rabs (real roy) <= B ->
  parse_expr uni_letter expr = Ok l -> Forall unresized l ->
  let X := (IZR (zlen expr) + 2) * (INR (levels_of l) + 1) in
  X <= 2 ^ 15 ->
  mtex_parse uni_letter range be parse_float expr fsize fdpi s = Some (LOk ((t, err), s')) ->
  let m := size_of_expression M expr size dpi l in let b := INR (bars_of l) in
  exists t' st, ship_call ox oy t = LOk (t', st) /\
    Forall (stays64 M ((b + 1) * (X ^ 2 * B / 2 ^ 31)) (real roy - b / 2) (real roy + (real (x_h m) + real (x_d m)) + b / 2)) (s_out st).
Proof.
  intros * FR BB MB RG SP DP SB FX VX BX FY VY BY P U X XB E m b.
  assert (SA : Rabs (real size) <= B) by (rewrite Rabs_right; [exact SB|apply Rle_ge; rewrite <- real_0; now apply real_le]).
  destruct (C97_picture _ _ _ _ _ _ _ _ _ _ _ _ _ _ _ ox oy _ _ _ _ FR BB MB SA FX VX BX FY VY BY P U XB E) as (t' & st & SC & D).
  exists t', st. split; [exact SC|]. fold X m in D.
  destruct (RoomFacts.picture_fits M size dpi RG expr (clearance_pos _ _ SP DP) l) as [V _].
  rewrite expression_pieces in V. fold m in V. rewrite <- real_1, <- real_plus in D.
  specialize (V 1%Qc (roy + x_h m)%Qc (roy + x_h m)%Qc O ltac:(discriminate)). rewrite Forall_forall in V.
  assert (E0 : 0 <= X ^ 2 * B / 2 ^ 31) by (apply Rmult_le_pos; [apply Rmult_le_pos; [apply pow2_ge_0|lra]|lra]).
  pose proof (drawn_reached _ fdpi _ 1%Qc _ _ (roy + x_h m)%Qc (roy + x_h m)%Qc O _ D ltac:(unfold slip; cbn [INR]; lra) ltac:(unfold slip; cbn [INR]; lra)) as G.
  eapply Forall_impl; [|exact G]. cbv beta. intros c EX. apply Exists_exists in EX as (p & I & RP). specialize (V p I).
  pose proof (reached_stays _ _ _ _ _ _ _ E0 RP V) as ST. cbn [Nat.add] in ST.
  replace (real roy) with (real (roy + x_h m - 1 * x_h m)) by (f_equal; ring).
  replace (_ + (real (x_h m) + real (x_d m))) with (real (roy + x_h m + 1 * x_d m)) by (rewrite !real_plus, !real_minus, !real_mult, !real_plus, real_1; ring).
  exact ST.
Qed.

(** ** TrueType fonts *)
(** A formula typeset with TrueType fonts in float64, after any calls for the same
    size: the picture, and the room it takes. *)
Theorem C97_truetype : forall (Fnt : Type) U range pf pq (sf : @Ttf.sfnt float64 Fnt) fnts x l B (size dpi rox roy : Qc) fsize fdpi ox oy h c t err s',
  let M := PropFormula.font_measures pq (SizeTtfSpec.on_paper sf) fnts dpi in
  fair range -> 1 <= B <= 2 ^ 900 -> (0 <= size)%Qc -> (0 <= dpi)%Qc -> SizeTtfSpec.is_number fsize size -> SizeTtfSpec.is_number fdpi dpi ->
  SizeTtfSpec.is_number ox rox -> Rabs (real rox) <= B -> SizeTtfSpec.is_number oy roy -> Rabs (real roy) <= B -> real size <= B ->
  SizeTtfSpec.int32_font sf -> SizeTtfSpec.fonts_within B sf fnts size dpi -> SizeTtfSpec.numbers_within B pf pq (em M size) ->
  parse_expr U x = Ok l -> Forall (fun n => MtexHoare.is_math n = true) l -> Forall unresized l ->
  Forall (SizeTtfSpec.at_size fsize fdpi) h ->
  let X := (IZR (zlen x) + 2) * (INR (levels_of l) + 1) in
  X <= 2 ^ 15 ->
  mtex_parse U range (Ttf.ttf_backend sf fnts) pf x fsize fdpi (TtfSpec.after sf fnts h (Ttf.new_ttf c)) = Some (LOk ((t, err), s')) ->
  let m := size_of_expression M x size dpi l in let b := INR (bars_of l) in
  exists t' st, ship_call ox oy t = LOk (t', st) /\
    drawn (X ^ 2 * B / 2 ^ 31) fdpi 1 (real rox) (real roy + real (x_h m)) (picture_of M x size dpi l) (s_out st) /\
    (has_delimiters (SizeTtfSpec.on_paper sf) fnts dpi size ->
     Forall (stays64 M ((b + 1) * (X ^ 2 * B / 2 ^ 31)) (real roy - b / 2) (real roy + (real (x_h m) + real (x_d m)) + b / 2)) (s_out st)).
Proof.
  intros * FR BB SP DP NS ND [FX VX] BX [FY VY] BY SB I32 FW NW P OM UR H X XB E m b.
  pose proof (PropSizeTtf.one_size_sim sf fnts fsize fdpi U range pf x l _ FR P OM UR (PropSizeTtf.after_related sf fnts fsize fdpi h c H)) as Q.
  rewrite E in Q. cbn [PropFormula.seen_of] in Q.
  destruct (mtex_parse U range (PropSizeTtf.fresh64 sf fnts) pf x fsize fdpi tt) as [[[[t1 err'] []]|e]|] eqn:E'; try discriminate Q.
  cbn [PropFormula.seen_of] in Q. assert (t = t1) by congruence. subst t1.
  assert (BM' : B <= bpow radix2 900) by (change 900%Z with (Z.of_nat 900); rewrite bpow_nat; apply BB).
  assert (MB : measured64 B M size dpi fsize fdpi (PropSizeTtf.fresh64 sf fnts) pf) by (apply (PropSizeTtf.fonts_measured64 pf pq sf fnts B size dpi fsize fdpi); try assumption; apply BB).
  assert (SA : Rabs (real size) <= B) by (rewrite Rabs_right; [exact SB|apply Rle_ge; rewrite <- real_0; now apply real_le]).
  destruct (C97_picture _ _ _ _ _ _ _ _ _ _ _ _ _ _ _ ox oy _ _ _ _ FR BB MB SA FX VX BX FY VY BY P UR XB E') as (t' & st & SC & D).
  exists t', st. split; [exact SC|]. split; [exact D|]. intros HD.
  pose proof (fonts_regular pq (SizeTtfSpec.on_paper sf) fnts dpi size SP DP HD) as RG.
  destruct (C97_room _ _ _ _ _ _ _ _ _ _ _ _ _ _ _ ox oy _ _ _ _ FR BB MB RG SP DP SB FX VX BX FY VY BY P UR XB E') as (t2 & st2 & SC2 & D2).
  assert (QE : (t', st) = (t2, st2)) by (rewrite SC in SC2; inversion SC2; reflexivity). assert (st = st2) by congruence. subst st2. exact D2.
Qed.

(** ** Cases *)
(** The squares of 16 pixels (PropApx.v) in a font whose glyphs grow with its size. *)
Definition squares_r : measures := mk_measures (fun _ f _ => pts f) (fun _ f _ => pts f * Q2Qc (3 # 4))%Qc (fun _ f _ => pts f * Q2Qc (1 # 4))%Qc
  (fun _ f _ => pts f * Q2Qc (1 # 4))%Qc (fun _ _ _ _ => 0%Qc) (fun f => pts f * Q2Qc (1 # 8))%Qc (fun v => if String.eqb v "2" then Q2Qc 2 else 0%Qc).
Example squares_r_measured : measured64 1024 squares_r (Q2Qc 16) (Q2Qc 64) 16%float 64%float squares64 two64.
Proof.
  destruct squares64_measured as (H1 & H2 & H3 & H4 & H5 & H6 & H7). unfold measured64.
  split; [exact H1|]. split; [exact H2|]. split; [exact H3|].
  assert (E12 : (Q2Qc 16 * Q2Qc (3 # 4))%Qc = Q2Qc 12) by (apply Qc_is_canon; reflexivity).
  assert (E4 : (Q2Qc 16 * Q2Qc (1 # 4))%Qc = Q2Qc 4) by (apply Qc_is_canon; reflexivity).
  assert (E2 : (Q2Qc 16 * Q2Qc (1 # 8))%Qc = Q2Qc 2) by (apply Qc_is_canon; reflexivity).
  split; [|split; [|split]].
  - intros * F E. cbn [squares_r adv up down mid pts f_size]. rewrite E12, E4. exact (H4 _ _ _ _ _ _ F E).
  - intros * F1 F2 E. exact (H5 _ _ _ _ _ _ _ F1 F2 E).
  - intros * F E. cbn [squares_r line pts f_size]. rewrite E2. exact (H6 _ _ _ _ F E).
  - intros * E. unfold em. cbn [squares_r adv pts number f_size face]. exact (H7 _ _ E).
Qed.
Example squares_r_regular : forall size, (0 < size)%Qc -> regular squares_r size.
Proof. 
  intros size SP. split; [|split; [|split]].
  - intros. split; reflexivity.
  - intros s f z k F K. unfold squares_r, resize, pts. cbn [up down f_size]. rewrite F. cbn [fmul exact xmul]. split; ring.
  - intros typ _. unfold squares_r, pts, face. cbn [line f_size]. apply RoomFacts.mul_pos; [now apply Qclt_le_weak|discriminate].
  - intros c typ _ _. unfold squares_r, pts, face. cbn [up down f_size].
    replace (size * Q2Qc (3 # 4) + size * Q2Qc (1 # 4))%Qc with size; [exact SP|].
    rewrite <- Qcmult_plus_distr_r. replace (Q2Qc (3 # 4) + Q2Qc (1 # 4))%Qc with 1%Qc by (apply Qc_is_canon; reflexivity). ring.
Qed.
(** A fraction in a fraction: drawn in float64 and as specified, symbols with their
    position and font size, lines with their corners. *)
Definition calls64 (l : list (@event float64)) : list (string * list float) :=
  map (fun e => match e with EGlyph x y f s _ => (s, [x; y; f_size f]) | ERect x1 y1 x2 y2 => ("rule", [x1; y1; x2; y2]) end) l.
Definition calls_q (l : list (@event exact)) : list (string * list Q) :=
  let v x := match x with Fin z => this z | _ => 0%Q end in
  map (fun e => match e with EGlyph x y f s _ => (s, [v x; v y; v (f_size f)]) | ERect x1 y1 x2 y2 => ("rule", [v x1; v y1; v x2; v y2]) end) l.
Definition c97_expr : string := "a$\frac{x}{2+\frac{1}{y}}$".
Definition c97_tree : list node := match parse_expr ascii_only c97_expr with Ok l => l | _ => [] end.
Definition c97_drawn : option (list (string * list float)) :=
  match mtex_parse ascii_only id_range squares64 two64 c97_expr 16%float 64%float tt with
  | Some (LOk (t, None, _)) => match ship_call (A := float64) 3%float 5%float t with LOk (_, st) => Some (calls64 (s_out st)) | _ => None end
  | _ => None end.
Definition c97_picture : list (string * list Q) :=
  calls_q (ink (Q2Qc 64) 1 (Q2Qc 3) (Q2Qc 5 + x_h (size_of_expression squares_r c97_expr (Q2Qc 16) (Q2Qc 64) c97_tree))
    (picture_of squares_r c97_expr (Q2Qc 16) (Q2Qc 64) c97_tree)).
(** 24.2, 13.4, 32.44 ... are no float64 numbers. *)
Example C97_case : parse_expr ascii_only c97_expr = Ok c97_tree /\ Forall unresized c97_tree /\ bars_of c97_tree = O /\
  (IZR (zlen c97_expr) + 2) * (INR (levels_of c97_tree) + 1) <= 2 ^ 15 /\
  c97_drawn = Some
    [("a", [3; 0x1.8333333333334p+4; 16]);
     ("x", [32; 0x1.accccccccccccp+3; 0x1.6666666666666p+3]);
     ("rule", [19; 0x1.6333333333333p+4; 0x1.c428f5c28f5c2p+5; 0x1.8333333333333p+4]);
     ("2", [19; 0x1.3d1eb851eb852p+5; 0x1.6666666666666p+3]);
     ("+", [0x1.03851eb851eb8p+5; 0x1.3d1eb851eb852p+5; 0x1.6666666666666p+3]);
     ("1", [0x1.6f0a3d70a3d70p+5; 0x1.00a3d70a3d70ap+5; 0x1.f5c28f5c28f5bp+2]);
     ("rule", [0x1.6f0a3d70a3d70p+5; 0x1.31eb851eb851ep+5; 0x1.adc28f5c28f5bp+5; 0x1.3d1eb851eb851p+5]);
     ("y", [0x1.6f0a3d70a3d70p+5; 0x1.775c28f5c28f5p+5; 0x1.f5c28f5c28f5bp+2])]%float /\
  c97_picture =
    [("a", [3; 121 # 5; 16]); ("x", [32; 67 # 5; 56 # 5]); ("rule", [19; 111 # 5; 1413 # 25; 121 # 5]);
     ("2", [19; 991 # 25; 56 # 5]); ("+", [811 # 25; 991 # 25; 56 # 5]); ("1", [1147 # 25; 802 # 25; 196 # 25]);
     ("rule", [1147 # 25; 956 # 25; 1343 # 25; 991 # 25]); ("y", [1147 # 25; 1173 # 25; 196 # 25])]%Q.
Proof.
  split; [vm_compute; reflexivity|]. split; [vm_compute; repeat (constructor || discriminate)|]. split; [vm_compute; reflexivity|].
  split; [replace (levels_of c97_tree) with 2%nat by (vm_compute; reflexivity); change (zlen c97_expr) with (Z.of_nat (String.length c97_expr)); cbn; lra|].
  split; vm_compute; reflexivity.
Qed.
(** Lines over a fraction and in it, its own line between them. *)
Definition c97_over : string := "$\overline{\frac{1}{\overline{y}}}$".
Definition c97_over_tree : list node := match parse_expr ascii_only c97_over with Ok l => l | _ => [] end.
Example C97_over : parse_expr ascii_only c97_over = Ok c97_over_tree /\ Forall unresized c97_over_tree /\ levels_of c97_over_tree = 3%nat /\
  match mtex_parse ascii_only id_range squares64 two64 c97_over 16%float 64%float tt with
  | Some (LOk (t, None, _)) => match ship_call (A := float64) 3%float 5%float t with LOk (_, st) => Some (calls64 (s_out st)) | _ => None end
  | _ => None end = Some [("rule", [3; 7; 0x1.2333333333333p+4; 9]); ("1", [3; 0x1.4666666666666p+4; 0x1.6666666666666p+3]); ("rule", [3; 0x1.d333333333333p+4; 0x1.c666666666666p+3; 0x1.f333333333333p+4]); ("rule", [3; 0x1.14cccccccccccp+5; 0x1.c666666666666p+3; 0x1.1ffffffffffffp+5]); ("y", [3; 46; 0x1.6666666666666p+3])]%float /\
  calls_q (ink (Q2Qc 64) 1 (Q2Qc 3) (Q2Qc 5 + x_h (size_of_expression squares_r c97_over (Q2Qc 16) (Q2Qc 64) c97_over_tree))
    (picture_of squares_r c97_over (Q2Qc 16) (Q2Qc 64) c97_over_tree)) =
    [("rule", [3; 7; 91 # 5; 9]); ("1", [3; 102 # 5; 56 # 5]); ("rule", [3; 146 # 5; 71 # 5; 156 # 5]);
     ("rule", [3; 173 # 5; 71 # 5; 36]); ("y", [3; 46; 56 # 5])]%Q.
Proof. split; [vm_compute; reflexivity|]. split; [vm_compute; repeat (constructor || discriminate)|]. repeat split; vm_compute; reflexivity. Qed.
(** Two overlines: the room may be a pixel more on either side. *)
Example C97_over_room : bars_of c97_over_tree = 2%nat /\
  (IZR (zlen c97_over) + 2) * (INR (levels_of c97_over_tree) + 1) <= 2 ^ 15 /\ regular squares_r (Q2Qc 16).
Proof.
  split; [vm_compute; reflexivity|]. split; [|apply squares_r_regular; reflexivity].
  replace (levels_of c97_over_tree) with 3%nat by (vm_compute; reflexivity). change (zlen c97_over) with (Z.of_nat (String.length c97_over)). cbn. lra.
Qed.
(** The fonts of PropSizeTtf.v have delimiters. *)
Example C97_tiles : has_delimiters (SizeTtfSpec.on_paper PropSizeTtf.tiles) PropTtf.toy_fonts (TtfExact.zq 72) (Q2Qc 10).
Proof.
  intros c typ C T. cbn [In] in C, T. destruct C as [<-|[<-|[<-|[]]]]; destruct T as [<-|[<-|[]]];
  (eexists _, _; split; [vm_compute; reflexivity|split; [reflexivity|reflexivity]]).
Qed.
Print Assumptions C97_picture. Print Assumptions C97_room. Print Assumptions C97_truetype.
