(** Proof of the float64 picture bounds (PicApxSpec.v): rows; the structure follows
    PicFacts.v, the bookkeeping of errors SizeApx.v. *)
From Coq Require Import ZArith String Ascii List Bool Lia QArith Qcanon Qreals Reals Lqa Lra Psatz.
From Flocq Require Import Core.Core IEEE754.BinarySingleNaN IEEE754.PrimFloat.
From Verif Require Import Utf8 Token Ast SetTable Parser Symbols PropSymbols TreeSpec Arith Exact OrderLaws Box Ship ShipSpec ShipFacts ShipFacts2
  PackSpec PackFacts ExactFacts PropPack PropShip Mtex MtexTable MtexSpec FracSpec MtexFacts MtexFacts2 MtexFacts4 MtexFacts5 PropMtex ReadSpec ReadFacts
  RadFacts GeomSpec GeomFacts GeomFacts2 SizeSpec SizeFacts Float64Facts PropError PropRows PropCost PicSpec Apx ApxSpec SizeApx PicApxSpec.
From Coq Require Import Floats Lra.
Import SizeSpec ApxSpec.
Import ListNotations.
Local Open Scope string_scope.
Local Open Scope list_scope.
Local Open Scope R_scope.

Lemma drawn_eq e d k x y k' x' y' f c : drawn e d k x y f c -> k = k' -> x = x' -> y = y' -> drawn e d k' x' y' f c.
Proof. intros H <- <- <-. exact H. Qed.

(** ** Repeated shrinking *)
Definition shr (j : nat) (t : @Box.tnode float64) : @Box.tnode float64 := Nat.iter j (scaled (A := float64) shrink_factor (-1)) t.
Definition mulj (j : nat) (x : float) : float := Nat.iter j (fun x => x * @shrink_factor float64)%float x.
Definition kj (j : nat) : Qc := Nat.iter j (Qcmult (Q2Qc (7 # 10))) 1%Qc.
Lemma shr_S j t : shr (Datatypes.S j) t = scaled (A := float64) shrink_factor (-1) (shr j t). Proof. reflexivity. Qed.
Lemma shr_r j t : shr j (scaled (A := float64) shrink_factor (-1) t) = shr (Datatypes.S j) t.
Proof. induction j as [|j IH]; [reflexivity|]. rewrite shr_S, IH. reflexivity. Qed.
Lemma mulj_S j x : mulj (Datatypes.S j) x = (mulj j x * @shrink_factor float64)%float. Proof. reflexivity. Qed.
Lemma kj_S j : kj (Datatypes.S j) = (Q2Qc (7 # 10) * kj j)%Qc. Proof. reflexivity. Qed.
Lemma mulj_0 j : mulj j 0%float = 0%float.
Proof. induction j as [|j IH]; [reflexivity|]. rewrite mulj_S, IH. vm_compute. reflexivity. Qed.
Lemma mulj_inf j : mulj j infinity = infinity.
Proof. induction j as [|j IH]; [reflexivity|]. rewrite mulj_S, IH. vm_compute. reflexivity. Qed.
Lemma kj_pos j : 0 < real (kj j) <= 1.
Proof.
  induction j as [|j IH]; [change (kj 0) with 1%Qc; rewrite real_1; lra|]. rewrite kj_S, real_mult, real_rat. split; [apply Rmult_lt_0_compat; lra|].
  replace 1 with (1 * 1) by ring. apply Rmult_le_compat; lra.
Qed.
Lemma shr_width j t : t_width (shr j t) = mulj j (t_width t).
Proof. induction j as [|j IH]; [reflexivity|]. rewrite shr_S, mulj_S, <- IH. destruct (shr j t); reflexivity. Qed.
Definition shb (j : nat) (b : @Box.box float64) : @Box.box float64 :=
  mk_box (b_size b - Z.of_nat j) (mulj j (b_width b)) (mulj j (b_height b)) (mulj j (b_depth b)).
Definition shg (j : nat) (g : @Box.gset float64) : @Box.gset float64 := mk_gset (mulj j (gs_set g)) (gs_sign g) (gs_order g) (gs_ratio g).
Definition shc (j : nat) (c : @Box.tchar float64) : @Box.tchar float64 :=
  mk_char (c_sym c) (c_size c - Z.of_nat j) (mulj j (c_width c)) (mulj j (c_height c)) (mulj j (c_depth c)) (c_metrics c)
      (mk_font (f_name (c_font c)) (f_type (c_font c)) (mulj j (f_size (c_font c)))) (c_dpi c) (c_math c).
Lemma size_S z j : (z - Z.of_nat j + -1 = z - Z.of_nat (Datatypes.S j))%Z. Proof. lia. Qed.
Lemma shr_tl j k b sh gs l : shr j (TL k b sh gs l) = TL k (shb j b) (mulj j sh) (shg j gs) (map (shr j) l).
Proof.
  induction j as [|j IH].
  - unfold shr, shb, shg, mulj. cbn [Nat.iter]. change (Z.of_nat 0) with 0%Z. rewrite Z.sub_0_r, map_id. destruct b, gs. reflexivity.
  - rewrite shr_S, IH. cbn [scaled shb shg b_size b_width b_height b_depth gs_set gs_sign gs_order gs_ratio]. rewrite size_S, map_map. reflexivity.
Qed.
Lemma shr_char j c : shr j (TChar c) = TChar (shc j c).
Proof.
  induction j as [|j IH].
  - unfold shr, shc, mulj. cbn [Nat.iter]. change (Z.of_nat 0) with 0%Z. rewrite Z.sub_0_r. destruct c as [? ? ? ? ? ? [? ? ?] ? ?]. reflexivity.
  - rewrite shr_S, IH. cbn [scaled shc c_sym c_size c_width c_height c_depth c_metrics c_font c_dpi c_math f_name f_type f_size]. rewrite size_S. reflexivity.
Qed.
Lemma shr_box j b : shr j (TBox b) = TBox (shb j b).
Proof.
  induction j as [|j IH].
  - unfold shr, shb, mulj. cbn [Nat.iter]. change (Z.of_nat 0) with 0%Z. rewrite Z.sub_0_r. destruct b. reflexivity.
  - rewrite shr_S, IH. cbn [scaled shb b_size b_width b_height b_depth]. rewrite size_S. reflexivity.
Qed.
Lemma shr_rule j b : shr j (TRule b) = TRule (shb j b).
Proof.
  induction j as [|j IH].
  - unfold shr, shb, mulj. cbn [Nat.iter]. change (Z.of_nat 0) with 0%Z. rewrite Z.sub_0_r. destruct b. reflexivity.
  - rewrite shr_S, IH. cbn [scaled shb b_size b_width b_height b_depth]. rewrite size_S. reflexivity.
Qed.
Lemma shr_kern j z w : shr j (TKern z w) = TKern (z - Z.of_nat j) (mulj j w).
Proof.
  induction j as [|j IH]; [unfold shr, mulj; cbn [Nat.iter]; change (Z.of_nat 0) with 0%Z; rewrite Z.sub_0_r; reflexivity|].
  rewrite shr_S, IH. cbn [scaled]. rewrite size_S. reflexivity.
Qed.
Lemma shr_glue j g : shr j (TGlue g) = TGlue (mk_glue (g_size g - Z.of_nat j) (mulj j (g_width g)) (g_stretch g) (g_stretch_order g) (g_shrink g) (g_shrink_order g)).
Proof.
  induction j as [|j IH]; [unfold shr, mulj; cbn [Nat.iter]; change (Z.of_nat 0) with 0%Z; rewrite Z.sub_0_r; destruct g; reflexivity|].
  rewrite shr_S, IH. cbn [scaled g_size g_width g_stretch g_stretch_order g_shrink g_shrink_order]. rewrite size_S. reflexivity.
Qed.

Section PicApx.
Context {S : Type}.
Variable range : Symbols.gset -> list string.
Variable be : @backend float64 S.
Variable parse_float : string -> option float.
Variable M : measures.
Variables (expr : string) (size dpi : Qc) (fsize fdpi : float) (B N : R).
Variables (fox foy : float) (rox roy no : R).
Notation tnode := (@Box.tnode float64).
Notation state := (@Box.state float64).
Notation face := (face size).
Hypothesis FR : fair range.
Hypothesis MB : measured64 B M size dpi fsize fdpi be parse_float.
Hypothesis SB : Rabs (real size) <= B.
Hypothesis B1 : 1 <= B.
Hypothesis BM : B <= bpow radix2 900.
Hypothesis N1 : 1 <= N.
Hypothesis NM : N <= bpow radix2 26.
Hypothesis NBIG : 128 <= N.
Notation ap := (Apx.ap B N).
Notation ap_add := (Apx.ap_add B N B1 BM N1 NM).
Notation ap_sub := (Apx.ap_sub B N B1 BM N1 NM).
Notation ap_mono := (Apx.ap_mono B N B1 N1).
Notation ap_zero := (Apx.ap_zero B N B1 N1).
Notation rep := (SizeApx.rep M size fsize fdpi B N).
Notation reps := (SizeApx.reps M size fsize fdpi B N).
Notation hx := (SizeApx.hx B N).
(** Errors of positions: [K] times those of sizes. *)
Variable K : R.
Hypothesis K1 : 1 <= K.
Hypothesis AOX : ap 1 fox rox.
Hypothesis AOY : ap no foy roy.
Hypothesis NO : 0 <= no.
Definition tol : R := N * (N * B * u).
Notation drawn := (drawn tol fdpi).
Notation kr j := (real (kj j)).

Lemma ap_about m x q : ap m x q -> m <= N -> about tol x q.
Proof.
  intros (F & P & _ & H) L. split; [exact F|]. unfold tol. eapply Rle_trans; [exact H|]. apply Rmult_le_compat_r; [apply E_pos; assumption|lra].
Qed.
Lemma keep1 m x q : ap m x (real q) -> 37 <= m -> m + 1 <= N -> ap m (x * shrink_factor)%float (real (Q2Qc (7 # 10) * q)).
Proof.
  intros A L L'. rewrite real_mult, seven_tenths, Rmult_comm. eapply ap_mono; [apply (mul_ap B N B1 BM N1 NM m x _ _ (7 / 10) (7 / 10)); [exact A|exact L'|exact shrink_const| |]|].
  - apply Rabs_le. lra.
  - lra.
  - lra.
Qed.
Lemma keep j n m x q : ap n x (real q) -> n <= m -> 37 <= m -> m + 1 <= N -> ap m (mulj j x) (real (kj j * q)).
Proof.
  intros A L0 L L'. induction j as [|j IH].
  - change (kj 0) with 1%Qc. replace (1 * q)%Qc with q by ring. eapply ap_mono; [exact A|exact L0].
  - rewrite mulj_S, kj_S. replace (Q2Qc (7 # 10) * kj j * q)%Qc with (Q2Qc (7 # 10) * (kj j * q))%Qc by ring. now apply keep1.
Qed.

(** ** What boxes look like *)
Definition young (t : tnode) : Prop := accent_free t /\ Forall (fun n => (n <= 6)%Z) (sizes t).
Definition plain (t : tnode) : Prop := match t with TGlue _ => False | _ => True end.
(** In a horizontal list. *)
Definition child (t : tnode) (f : figure) (n : R) : Prop := young t /\ plain t /\
  forall j bx gs x v pre X Y m m', ap m (hpos gs x pre) X -> ap m' v Y -> m + K * n + 4 <= N -> m' + K * n + 4 + no <= N ->
    drawn (kr j) (X + rox) (Y + roy) f (hdraw fox foy bx gs x v pre (shr j t)).
Definition rep2 (p : shape) (t : tnode) (n : R) : Prop := rep (fst p) t n /\ child t (snd p) n /\
  match fst p with
  | Glyph _ _ _ => 80 <= n
  | Solid e => exists m, 37 <= m /\ m + 1 <= n /\ ap m (t_width t) (real (x_w e))
  end.
Inductive reps2 : list shape -> list tnode -> R -> Prop :=
| reps2_nil : reps2 [] [] 0
| reps2_cons p t n ps l W : rep2 p t n -> reps2 ps l W -> reps2 (p :: ps) (t :: l) (n + W).
(** A horizontal list. *)
Definition looks (t : tnode) (f : figure) (n : R) : Prop := young t /\
  forall j bx x v X Y m m', ap m x X -> ap m' v Y -> m + K * n + 4 <= N -> m' + K * n + 4 + no <= N ->
    drawn (kr j) (X + rox) (Y + roy) f (draws fox foy false bx (shr j t) x v).
Definition hb (t : tnode) (b : boxed) (n : R) : Prop := hx t (fst b) n /\ looks t (snd b) n.
(** A vertical list at the position given by its shift. *)
Definition vlooks (t : tnode) (f : figure) (n : R) : Prop := young t /\
  forall j x v X Y m m', ap m x X -> ap m' v Y -> m + K * n + 4 <= N -> m' + K * n + 4 + no <= N ->
    drawn (kr j) (X + rox) (Y + roy) f (draws fox foy true (t_box (shr j t)) (shr j t) x v).

Lemma Kup n m : n <= m -> K * n <= K * m. Proof. intros H. apply Rmult_le_compat_l; lra. Qed.
Lemma Kge n : 0 <= n -> n <= K * n. Proof. intros H. pose proof (Rmult_le_compat_r n 1 K H K1). lra. Qed.
Lemma young_list k b sh gs l : young (TL k b sh gs l) <-> (b_size b <= 6)%Z /\ Forall young l.
Proof.
  unfold young. cbn [accent_free sizes]. rewrite accent_free_all. split.
  - intros (H1 & H2). inversion H2 as [|? ? H3 H4]; subst. split; [assumption|]. rewrite Forall_flat_map in H4.
    rewrite Forall_forall in *. intros x I. auto.
  - intros (H1 & H2). split; [eapply Forall_impl; [|exact H2]; now intros ? []|]. constructor; [assumption|].
    rewrite Forall_flat_map. eapply Forall_impl; [|exact H2]. now intros ? [].
Qed.
Lemma child_more t f n m : child t f n -> n <= m -> child t f m.
Proof. intros (Y & P & H) L. split; [exact Y|]. split; [exact P|]. pose proof (Kup _ _ L). intros. eapply H; [eassumption|eassumption|lra|lra]. Qed.
Lemma looks_more t f n m : looks t f n -> n <= m -> looks t f m.
Proof. intros (Y & H) L. split; [exact Y|]. pose proof (Kup _ _ L). intros. eapply H; [eassumption|eassumption|lra|lra]. Qed.
Lemma hb_more t b n m : hb t b n -> n <= m -> hb t b m.
Proof. intros [H L] HL. split; [eapply hx_more; eassumption|eapply looks_more; eassumption]. Qed.
Lemma hb_ge t b n : hb t b n -> 0 <= n. Proof. intros [H _]. eapply hx_ge; exact H. Qed.
Lemma rep2_more p t n m : rep2 p t n -> n <= m -> rep2 p t m.
Proof.
  intros (R & C & W) L. split; [eapply (SizeApx.rep_more M size fsize fdpi B N B1 N1); eassumption|]. split; [eapply child_more; eassumption|].
  destruct (fst p); [lra|]. destruct W as (k & Q1 & Q2 & Q3). exists k. split; [lra|]. split; [lra|exact Q3].
Qed.
Lemma reps2_one p t n : rep2 p t n -> reps2 [p] [t] n.
Proof. intros H. rewrite <- (Rplus_0_r n). constructor; [exact H|constructor]. Qed.
Lemma reps2_app ps l W ps' l' W' : reps2 ps l W -> reps2 ps' l' W' -> reps2 (ps ++ ps') (l ++ l') (W + W').
Proof.
  intros H H'. induction H as [|p t n ps l W R _ IH]; cbn [app]; [now rewrite Rplus_0_l|]. rewrite Rplus_assoc. now constructor.
Qed.
Lemma reps2_fst ps l W : reps2 ps l W -> reps (map fst ps) l W.
Proof. induction 1 as [|p t n ps l W R _ IH]; cbn [map]; constructor; [apply R|exact IH]. Qed.
Lemma rep2_ge p t n : rep2 p t n -> 0 <= n. Proof. intros (R & _). eapply rep_ge; exact R. Qed.
Lemma reps2_ge ps l W : reps2 ps l W -> 0 <= W. Proof. intros H. eapply reps_ge, reps2_fst; exact H. Qed.
Lemma reps2_young ps l W : reps2 ps l W -> Forall young l.
Proof. induction 1 as [|? ? ? ? ? ? H]; constructor; [apply H|assumption]. Qed.

Lemma looks_child b gs l f n : looks (TL KHList b f0 gs l) f n -> child (TL KHList b f0 gs l) f n.
Proof.
  intros (Y & D). split; [exact Y|]. split; [exact I|]. intros j bx gs' x v pre X Y0 m m' HX HY L1 L2.
  specialize (D j (shb j b) (hpos gs' x pre) (v + 0)%float X Y0 m m' HX). rewrite shr_tl in *. rewrite f0_is, mulj_0 in *. unfold hdraw. cbn [is_vlist].
  apply D; [|assumption|assumption]. now apply plus_0.
Qed.
Lemma hb_rep2 t b n : hb t b n -> 37 <= n -> rep2 (Solid (fst b), snd b) t (n + 1).
Proof.
  intros (H & L) G. split; [now apply (hx_rep M size fsize fdpi B N B1 BM N1 NM)|]. cbn [fst snd].
  pose proof H as (bx & gs & l & nh & nd & -> & _ & _ & AW & _). split.
  - apply child_more with n; [now apply looks_child|lra].
  - exists n. split; [exact G|]. split; [lra|exact AW].
Qed.

(** ** Rows *)
Lemma plain_right gs pre t q : plain t -> right_of (A := float64) gs pre t q = (q + t_width t)%float.
Proof. destruct t; intros P; try destruct P; reflexivity. Qed.
Lemma plain_shr j t : plain t -> plain (shr j t).
Proof. intros P. induction j as [|j IH]; [exact P|]. rewrite shr_S. destruct (shr j t); auto. Qed.
Lemma row_each ps l W : reps2 ps l W -> forall s l' s', kern_list be l s = LOk (l', s') ->
  forall j bx gs x v pre a X Y m m', ap m (hpos gs x pre) (X + real (kj j * a)) -> ap m' v Y -> m + K * W + 6 <= N -> m' + K * W + 6 + no <= N ->
  drawn (kr j) (X + rox) (Y + roy) (lay M a ps) (each (hdraw fox foy bx gs x v) pre (map (shr j) l')).
Proof.
  induction 1 as [|[p f] t n ps l W R F2 IH]; intros s l' s' E j bx gs x v pre a X Y m m' HX HY L1 L2.
  - cbn [kern_list] in E. apply ret_ok in E as [-> _]. reflexivity.
  - cbn [kern_list] in E. apply bind_ok in E as (d & s1 & E1 & E). apply bind_ok in E as (r & s2 & E2 & E). apply ret_ok in E as [-> _].
    pose proof (rep2_ge _ _ _ R) as Pn. pose proof (reps2_ge _ _ _ F2) as PW. pose proof (ap_ge _ _ _ _ _ HX) as Pm. pose proof (ap_ge _ _ _ _ _ HY) as Pm'. pose proof (Kge n Pn). pose proof (Kge W PW).
    destruct R as (R & (_ & PL & CH) & RW). cbn [fst snd] in *.
    assert (HD : drawn (kr j) (X + rox + kr j * real a) (Y + roy + kr j * real 0) f (hdraw fox foy bx gs x v pre (shr j t))).
    { eapply drawn_eq; [eapply (CH j bx gs x v pre (X + real (kj j * a)) Y m m' HX HY); lra|reflexivity| |]; reals; ring. }
    cbn [lay PicApxSpec.drawn].
    assert (NX : match hd_error (map fst ps), hd_error l with Some q, Some u => exists n, rep q u n | None, None => True | _, _ => False end).
    { destruct F2 as [|p' t' n' ps' l0 W' R']; cbn [hd_error map]; [exact I|]. exists n'. apply R'. }
    assert (POS : exists l0, (if negb (feqb float64 d f0) then t :: new_kern d :: r else t :: r) = t :: l0 /\
              exists pre' m2, each (hdraw fox foy bx gs x v) (pre ++ [shr j t]) (map (shr j) l0) = each (hdraw fox foy bx gs x v) pre' (map (shr j) r) /\
                ap m2 (hpos gs x pre') (X + real (kj j * (a + step M p ps))) /\ m2 <= m + n).
    { destruct p as [sy ft md|e].
      - destruct R as (ch & w & -> & R1 & R2 & R3 & RA & RWd & _).
        assert (DK : ap 5 d (real (SizeApx.kern_after M (Glyph sy ft md) (hd_error (map fst ps)) w))).
        { refine (kerning_rep be parse_float M size dpi fsize fdpi B N MB B1 BM N1 NM NBIG sy ft md ch _ _ _ _ _ w R1 R2 R3 RA RWd ltac:(lra) NX E1). }
        assert (ST : (step M (Glyph sy ft md) ps = w + SizeApx.kern_after M (Glyph sy ft md) (hd_error (map fst ps)) w)%Qc).
        { unfold step, SizeApx.kern_after. destruct ps as [|[[]] ps']; cbn [hd_error map fst]; ring. }
        assert (A1 : ap (m + 37 + 1) (hpos gs x (pre ++ [shr j (TChar ch)])) (X + real (kj j * a) + real (kj j * w))).
        { rewrite hpos_snoc, plain_right by (now apply plain_shr). rewrite shr_width. cbn [t_width]. apply ap_add; [exact HX| |lra]. eapply keep; [exact RWd|lra|lra|lra]. }
        destruct (negb (feqb float64 d f0)) eqn:Z; eexists; (split; [reflexivity|]).
        + exists ((pre ++ [shr j (TChar ch)]) ++ [shr j (new_kern d)]), (m + 37 + 1 + 37 + 1). split; [|split].
          * cbn [map each]. unfold new_kern. rewrite !(shr_kern j 0 d). reflexivity.
          * rewrite hpos_snoc, plain_right by (apply plain_shr; exact I). rewrite shr_width. cbn [t_width new_kern].
            eapply Apx.ap_val; [apply ap_add; [exact A1|eapply (keep j 5 37); [exact DK|lra|lra|lra]|lra]|]. rewrite ST. reals. ring.
          * lra.
        + apply negb_false_iff in Z. apply eqb_zero in Z; [|eapply ap_fin; exact DK].
          exists (pre ++ [shr j (TChar ch)]), (m + 37 + 1 + 37). split; [reflexivity|]. split; [|lra].
          assert (D0 : ap 5 0%float (real (SizeApx.kern_after M (Glyph sy ft md) (hd_error (map fst ps)) w))).
          { eapply Apx.ap_eq; [exact DK|apply zero_int|]. rewrite (proj2 zero_int). now rewrite Z. }
          apply (keep j 5 37) in D0; [|lra|lra|lra]. rewrite mulj_0 in D0.
          eapply Apx.ap_val; [eapply (ap_skip B N); [exact A1|exact D0|apply zero_int]|]. rewrite ST. reals. ring.
      - destruct R as (ST & _). assert (DZ : d = f0) by (destruct t; try destruct ST; apply ret_ok in E1 as [-> _]; reflexivity). subst d.
        change (negb (feqb float64 f0 f0)) with false. cbv iota. exists r. split; [reflexivity|].
        destruct RW as (k & Q1 & Q2 & Q3). exists (pre ++ [shr j t]), (m + k + 1). split; [reflexivity|]. split; [|lra].
        rewrite hpos_snoc, plain_right by (now apply plain_shr). rewrite shr_width.
        eapply Apx.ap_val; [apply ap_add; [exact HX|eapply keep; [exact Q3|lra|lra|lra]|lra]|]. cbn [step]. reals. ring. }
    destruct POS as (l0 & -> & pre' & m2 & EQ & A2 & L3). cbn [map each].
    eexists _, _. split; [reflexivity|]. split; [exact HD|]. rewrite EQ. eapply (IH _ _ _ E2); [exact A2|exact HY|lra|lra].
Qed.
Lemma kern_young l : forall s l' s', Forall young l -> kern_list be l s = LOk (l', s') -> Forall young l'.
Proof.
  induction l as [|x l IH]; intros s l' s' F E; cbn [kern_list] in E.
  - apply ret_ok in E as [-> _]. constructor.
  - apply bind_ok in E as (d & s1 & _ & E). apply bind_ok in E as (r & s2 & E2 & E). apply ret_ok in E as [-> _].
    inversion F as [|? ? Y F']; subst. apply IH in E2; [|assumption].
    destruct (negb _); constructor; try assumption. constructor; [|assumption]. split; [exact I|]. constructor; [cbn; lia|constructor].
Qed.
Lemma row_hb ps l W s t s' : reps2 ps l W -> W + 8 <= N -> hlist_of be l true s = LOk (t, s') -> hb t (box_of M ps) (W + 2).
Proof.
  intros F2 L E. pose proof (reps2_ge _ _ _ F2) as PW. split.
  { eapply hx_more; [assumption|assumption|eapply (hlist_row be parse_float M size dpi fsize fdpi B N MB B1 BM N1 NM NBIG); [apply reps2_fst; exact F2|lra|lra|exact E]|lra]. }
  unfold hlist_of in E. apply bind_ok in E as (l' & s1 & E1 & E). apply ret_ok in E as [-> _].
  unfold list_of. cbn [hpack]. pose proof (Kge W PW). split.
  - apply young_list. cbn [b_size new_box]. split; [lia|]. eapply kern_young; [|exact E1]. eapply reps2_young; exact F2.
  - intros j bx x v X Y m m' HX HY L1 L2. rewrite shr_tl, draws_unfold. cbn [box_of snd].
    eapply (row_each _ _ _ F2 _ _ _ E1 j bx _ x v [] 0%Qc X Y m m'); [|exact HY|lra|lra].
    unfold hpos. cbn [ShipSpec.after]. eapply Apx.ap_val; [exact HX|]. reals. ring.
Qed.
Lemma natural_hb ps l W t (s : S) : reps2 ps l W -> W + 8 <= N -> (forall x, In x l -> stiff x) -> natural_h l t -> hb t (box_of M ps) (W + 2).
Proof.
  intros F2 L ST NH. apply (row_hb ps l W s t s F2 L). unfold hlist_of, mbind. rewrite (kern_stiff be eq_refl l ST s). rewrite NH. reflexivity.
Qed.

(** ** Shrinking *)
Lemma shrink_hb t b n s t' s' : hb t b n -> n + 1 <= N -> shrink be t s = LOk (t', s') -> hb t' (small b) (n + 22).
Proof.
  intros (H & Y & L) LN E. split; [eapply (shrink_hx be B N B1 BM N1 NM); eassumption|]. destruct Y as [Y1 Y2].
  rewrite (shrink_scaled be t Y1 Y2) in E. assert (t' = scaled shrink_factor (-1) t) by (inversion E; reflexivity). subst t'.
  split.
  - split; [now apply accent_free_scaled|]. rewrite sizes_scaled. rewrite Forall_forall in *. intros z Hz.
    apply in_map_iff in Hz as (z' & <- & Hz'). specialize (Y2 _ Hz'). cbn in Y2. lia.
  - intros j bx x v X Y m m' HX HY L1 L2. rewrite shr_r. cbn [small snd PicApxSpec.drawn]. pose proof (Kup n (n + 22) ltac:(lra)).
    eapply drawn_eq; [eapply (L (Datatypes.S j)); [exact HX|exact HY|lra|lra]| |reflexivity|reflexivity]. rewrite kj_S. reals. ring.
Qed.
Lemma style_hb sty num b n s num' s' : hb num b n -> n + 1 <= N -> style_shrink be sty num s = LOk (num', s') ->
  hb num' (match sty with DisplayStyle => b | TextStyle => small b end) (n + 22).
Proof.
  intros H L E. destruct sty; [apply ret_ok in E as [-> _]; eapply hb_more; [exact H|lra]|]. eapply shrink_hb; eauto.
Qed.

(** ** Glyphs and spaces *)
Notation at_font := (SizeApx.at_font fdpi).
Notation fface := (SizeApx.fface fsize).
Notation stt typ := (at_font (fface typ)).
Lemma char_rep2 sym typ m s c s' : new_char be sym (stt typ) m s = LOk (c, s') -> rep2 (mark sym (face typ) m) (TChar c) 80.
Proof.
  intros E. split; [|split].
  - eapply (SizeApx.rep_more M size fsize fdpi B N B1 N1); [eapply (char_rep be parse_float M size dpi fsize fdpi B N MB B1 BM N1 NM NBIG sym (fface typ)); [reflexivity|exact E]|lra].
  - unfold new_char in E. cbn [SizeApx.at_font st_font st_dpi] in E. apply bind_ok in E as (x & s1 & E1 & E). apply ret_ok in E as [-> _].
    split; [split; [exact I|]|]. { constructor; [cbn; lia|constructor]. }
    split; [exact I|]. intros j bx gs x0 v pre X Y k k' HX HY L1 L2. rewrite shr_char. unfold hdraw, glyph. cbn [mark snd PicApxSpec.drawn shc c_font c_sym c_dpi].
    pose proof (ap_ge _ _ _ _ _ HX). pose proof (ap_ge _ _ _ _ _ HY). pose proof (Kge 80 ltac:(lra)).
    eexists _, _, _. split; [reflexivity|]. cbn [f_name f_type f_size SizeApx.fface SizeSpec.face].
    split; [eapply ap_about; [apply ap_add; [exact HX|exact AOX|lra]|lra]|].
    split; [eapply ap_about; [apply ap_add; [exact HY|exact AOY|lra]|lra]|].
    split; [reflexivity|]. split; [reflexivity|]. exists size. split; [reflexivity|].
    rewrite <- real_mult. eapply (ap_about 37); [|lra]. eapply (keep j 1); [|lra|lra|lra].
    destruct MB as ((FS & VS) & _). apply (ap_exact B N B1 N1); [exact FS|exact VS|lra|lra].
  - cbn [fst mark]. lra.
Qed.
Lemma kern_rep2 w q n : ap n w (real q) -> n <= 37 -> rep2 (space q) (new_kern w) 40.
Proof.
  intros A L. pose proof (ap_mono _ 37 _ _ A L) as A'. split; [|split].
  - eapply (SizeApx.rep_more M size fsize fdpi B N B1 N1); [apply rep_kern; [assumption..|exact A']|lra].
  - split; [split; [exact I|constructor; [cbn; lia|constructor]]|]. split; [exact I|]. intros. unfold new_kern. rewrite shr_kern. reflexivity.
  - cbn [fst space gap x_w]. exists 37. split; [lra|]. split; [lra|exact A'].
Qed.
Lemma hbox_rep2 w q n : ap n w (real q) -> n <= 37 -> rep2 (space q) (hbox w) 40.
Proof.
  intros A L. pose proof (ap_mono _ 37 _ _ A L) as A'. split; [|split].
  - eapply (SizeApx.rep_more M size fsize fdpi B N B1 N1); [apply rep_hbox; [assumption..|exact A']|lra].
  - split; [split; [exact I|constructor; [cbn; lia|constructor]]|]. split; [exact I|]. intros. unfold hbox. rewrite shr_box. reflexivity.
  - cbn [fst space gap x_w]. exists 37. split; [lra|]. split; [lra|exact A'].
Qed.
Lemma rep_space typ q k s t s' n : rep (Solid (gap k)) t n -> n <= 37 -> make_space be (stt typ) q s = LOk (t, s') -> rep2 (space k) t 40.
Proof.
  intros (_ & A) L E. apply make_space_ok in E as (m & _ & ->). destruct A as (kh & kd & P1 & P2 & P3 & P4 & A).
  assert (D0 : DD B N dims0 0 0 0 0 0 0) by (unfold DD, dims0; cbn [d_w d_h d_d]; rewrite real_0; split; [|split]; exact ap_zero).
  specialize (A dims0 0 0 0 0%Qc 0%Qc 0%Qc D0 (Qcle_refl _) (Qcle_refl _) ltac:(lra)). destruct A as (A & _). cbn [hpack_dims new_kern d_w dims0 gap x_w] in A.
  rewrite Rplus_0_l in A. replace (0 + k)%Qc with k in A by ring.
  match type of A with Apx.ap _ _ _ (fadd float64 f0 ?w) _ => assert (FW : finite w); [|apply (kern_rep2 w k n); [|exact L]] end.
  - change (finite (0 + fmul float64 (m_adv m) q)%float) in A || idtac. pose proof (ap_fin _ _ _ _ _ A) as F.
    match type of A with Apx.ap _ _ _ (fadd float64 f0 ?w) _ => change (fadd float64 f0 w) with (0 + w)%float in F; exact (proj2 (add_finite _ _ F)) end.
  - eapply Apx.ap_eq; [exact A|exact FW|]. symmetry.
    match type of A with Apx.ap _ _ _ (fadd float64 f0 ?w) _ => exact (proj2 (add_zero_R w 0%float FW (proj1 zero_int) (proj2 zero_int))) end.
Qed.
Lemma thin2 typ s t s' : make_space be (stt typ) (frat 1 5) s = LOk (t, s') -> rep2 (space (em_over M size 1 5)) t 40.
Proof.
  intros E. eapply rep_space; [eapply (thin_ok be parse_float M size dpi fsize fdpi B N MB B1 BM N1 NM NBIG); exact E|lra|exact E].
Qed.
Lemma handle_space2 typ name s t s' : handle_space be name (stt typ) s = LOk (t, s') -> rep2 (space (space_of M size name)) t 40.
Proof.
  intros E. pose proof (handle_space_ok be parse_float M size dpi fsize fdpi B N MB B1 BM N1 NM NBIG typ name s t s' E) as R.
  unfold handle_space in E. destruct (assoc name space_width) as [[n d]|]; [|discriminate E].
  eapply rep_space; [exact R|lra|exact E].
Qed.
Lemma symbol2 typ m sym pos s t s' : 250 <= N -> handle_symbol range be expr sym pos (stt typ) m s = LOk (t, s') ->
  exists W, reps2 (symbol_shape M expr size m typ sym pos) [t] W /\ W <= 170.
Proof.
  intros N2 E. unfold handle_symbol in E. apply bind_ok in E as (c & s1 & E1 & E). apply char_rep2 in E1.
  assert (G : exists W, reps2 [mark sym (face typ) m] [TChar c] W /\ W <= 170) by (eexists; split; [apply reps2_one; exact E1|lra]).
  assert (SP : is_spaced range sym = one_of (BinaryOperators_list ++ RelationSymbols_list ++ ArrowSymbols_list) sym).
  { apply eq_iff_eq_true. rewrite (C20_is_spaced range sym FR), one_of_in, !in_app_iff. reflexivity. }
  unfold symbol_shape. rewrite <- SP. destruct (is_spaced range sym).
  - apply bind_ok in E as (bf & s2 & E2 & E). apply mlift_ok in E2. unfold obool_lres in E2.
    destruct (slice expr 0 pos) as [b0|] eqn:SL; [|discriminate E2]. injection E2 as ->.
    rewrite (after_opening_ok _ _ _ SL), set_has_list in E.
    destruct (one_of BinaryOperators_list sym && after_opening expr pos).
    + apply ret_ok in E as [-> _]. exact G.
    + apply bind_ok in E as (k1 & s3 & G1 & E). apply bind_ok in E as (k2 & s4 & G2 & E).
      apply thin2 in G1. apply thin2 in G2. eexists. split; [apply reps2_one; apply (hb_rep2 _ (box_of M _)); [eapply (row_hb _ _ (40 + (80 + (40 + 0)))); [|lra|exact E]|lra]|lra].
      constructor; [exact G1|]. constructor; [exact E1|]. constructor; [exact G2|constructor].
  - rewrite set_has_list in E. destruct (one_of PunctuationSymbols_list sym) eqn:PU.
    + destruct (String.eqb sym ".") eqn:DOT; [|discriminate E].
      apply bind_ok in E as (af & s2 & E2 & E). apply mlift_ok in E2. unfold obool_lres in E2.
      destruct (slice expr pos (zlen expr)) as [b0|] eqn:SL; [|discriminate E2]. injection E2 as ->.
      cbv zeta in E. rewrite (decimal_ok _ _ _ SL) in E. destruct (decimal_point expr pos).
      * apply ret_ok in E as [-> _]. exact G.
      * apply bind_ok in E as (k1 & s3 & G1 & E). apply thin2 in G1.
        eexists. split; [apply reps2_one; apply (hb_rep2 _ (box_of M _)); [eapply (row_hb _ _ (80 + (40 + 0))); [|lra|exact E]|lra]|lra].
        constructor; [exact E1|]. constructor; [exact G1|constructor].
    + apply ret_ok in E as [-> _].
      assert (DN : String.eqb sym "." = false).
      { destruct (String.eqb sym ".") eqn:DOT; [|reflexivity]. apply String.eqb_eq in DOT. subst sym. vm_compute in PU. discriminate PU. }
      rewrite DN. exact G.
Qed.
Lemma chars2 typ m text s ns s' : new_chars be text (stt typ) m s = LOk (ns, s') ->
  reps2 (map (letter_shape size m typ) (ReadSpec.letters text)) ns (80 * INR (List.length (ReadSpec.letters text))).
Proof.
  unfold new_chars. change (rune_strings text) with (ReadSpec.letters text). revert s ns s'.
  induction (ReadSpec.letters text) as [|x l IH]; intros s ns s' E; cbn [mmap] in E.
  - apply ret_ok in E as [-> _]. cbn [List.length INR map]. rewrite Rmult_0_r. constructor.
  - apply bind_ok in E as (c & s1 & E1 & E). apply bind_ok in E as (r & s2 & E2 & E). apply ret_ok in E as [-> _].
    apply bind_ok in E1 as (c0 & s3 & E3 & E1). apply ret_ok in E1 as [-> _]. cbn [map].
    change (List.length (x :: l)) with (Datatypes.S (List.length l)). rewrite S_INR. replace (80 * (INR (List.length l) + 1)) with (80 + 80 * INR (List.length l)) by ring.
    constructor; [|eapply IH; exact E2]. apply char_rep2 in E3. exact E3.
Qed.
Lemma hx_box t e n : hx t e n -> exists b gs l, t = TL KHList b f0 gs l /\ ap n (b_width b) (real (x_w e)) /\ ap n (b_height b) (real (x_h e)) /\ ap n (b_depth b) (real (x_d e)) /\
  (0 <= x_h e)%Qc /\ (0 <= x_d e)%Qc /\ (b_size b <= 0)%Z.
Proof.
  intros (b & gs & l & nh & nd & -> & BS & L & AW & AH & AD & P1 & P2). pose proof (ap_ge _ _ _ _ _ AH). pose proof (ap_ge _ _ _ _ _ AD).
  exists b, gs, l. split; [reflexivity|]. split; [exact AW|]. split; [eapply ap_mono; [exact AH|lra]|]. split; [eapply ap_mono; [exact AD|lra]|]. auto.
Qed.
End PicApx.
