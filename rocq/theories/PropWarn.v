(** C90: when packing a list writes a warning. *)
From Coq Require Import ZArith Bool List String Ascii QArith Qcanon Reals Lia.
From Flocq Require Import Core.Core IEEE754.BinarySingleNaN IEEE754.PrimFloat.
From Coq Require Import Floats Lra.
From Verif Require Import Arith Exact OrderLaws Box Warn ShipSpec ShipFacts PackSpec PackFacts ExactFacts PropPack Float64Facts PropError.
Import ListNotations.
Local Open Scope string_scope.
Local Open Scope list_scope.
Local Open Scope nat_scope.

(** ** Specification *)
(** No glue of infinite order (fil, fill, filll) is left: the totals of orders 1
    to 3 are all zero. *)
Definition rigid {A : arith} (tot : nat -> Arith.F A) : Prop := forall o, 1 <= o <= 3 -> zero (tot o).
(** The log lines of packing the children [l], of the given natural size, into a
    box that is [x] larger ([x] negative: smaller). *)
Inductive warning {A : arith} (typ : string) (l : list (@Box.tnode A)) (x : Arith.F A) : list string -> Prop :=
  | wn_fits : zero x -> warning typ l x []
  | wn_empty : l = [] -> warning typ l x []
  | wn_stretched o : ~ zero x -> fltb A f0 x = true -> 1 <= o <= 3 -> ~ zero (tot_stretch l o) -> warning typ l x []
  | wn_shrunk o : ~ zero x -> fltb A f0 x = false -> 1 <= o <= 3 -> ~ zero (tot_shrink l o) -> warning typ l x []
  | wn_over : ~ zero x -> l <> [] -> fltb A f0 x = true -> rigid (tot_stretch l) -> warning typ l x [("overfull " ++ typ)%string]
  | wn_under : ~ zero x -> l <> [] -> fltb A f0 x = false -> rigid (tot_shrink l) -> warning typ l x [("underfull " ++ typ)%string].

(** The relation is functional: it determines the log. *)
Lemma warning_det (A : arith) typ l (x : Arith.F A) a b : warning typ l x a -> warning typ l x b -> a = b.
Proof.
  intros H K.
  inversion H as [Z|E|o NZ G Ho Ht|o NZ G Ho Ht|NZ NE G R|NZ NE G R]; inversion K as [Z'|E'|o' NZ' G' Ho' Ht'|o' NZ' G' Ho' Ht'|NZ' NE' G' R'|NZ' NE' G' R']; subst;
    try reflexivity; try contradiction; try congruence; exfalso; try (now apply Ht, R'); now apply Ht', R.
Qed.

Section Facts.
Context {A : arith}.
Notation F := (Arith.F A).

Lemma det_order_0 (tot : list F) : List.length tot = 4 ->
  (determine_order tot = 0 /\ rigid (fun o => nth o tot f0)) \/
  (determine_order tot <> 0 /\ exists o, 1 <= o <= 3 /\ ~ zero (nth o tot f0)).
Proof.
  intros L. destruct (order_spec tot L) as [(H1 & H2 & H3)|[H1 H2]].
  - destruct (Nat.eq_dec (determine_order tot) 0) as [E|E].
    + left. split; [exact E|]. intros o Ho. apply H3. lia.
    + right. split; [exact E|]. exists (determine_order tot). split; [lia|exact H2].
  - left. split; [exact H1|]. intros o Ho. apply H2. lia.
Qed.

Lemma pack_log_spec typ (x : F) d (l : list (@Box.tnode A)) : tot_ok l dims0 d -> warning typ l x (pack_log typ x d l).
Proof.
  intros (H1 & H2 & H3 & H4).
  assert (E1 : forall o, o <= 3 -> nth o (d_stretch d) f0 = tot_stretch l o).
  { intros o Ho. rewrite H1 by lia. unfold tot_stretch, fsum. f_equal.
    destruct o as [|[|[|[|]]]]; try reflexivity. lia. }
  assert (E2 : forall o, o <= 3 -> nth o (d_shrink d) f0 = tot_shrink l o).
  { intros o Ho. rewrite H2 by lia. unfold tot_shrink, fsum. f_equal.
    destruct o as [|[|[|[|]]]]; try reflexivity. lia. }
  unfold pack_log. destruct (feqb A x f0) eqn:Ex; [now apply wn_fits|].
  assert (Hx : ~ zero x) by (unfold zero; congruence).
  destruct (fltb A f0 x) eqn:Hlt; unfold set_glue_log.
  - destruct (det_order_0 (d_stretch d) H3) as [[E R]|[E (o & Ho & Hn)]].
    + rewrite E. cbn [Nat.eqb]. destruct l as [|y l]; [now apply wn_empty|]. apply wn_over; auto; [discriminate|].
      intros o Ho. rewrite <- E1 by lia. now apply R.
    + destruct (Nat.eqb_spec (determine_order (d_stretch d)) 0); [contradiction|]. apply (wn_stretched _ _ _ o); auto. rewrite <- E1 by lia. exact Hn.
  - destruct (det_order_0 (d_shrink d) H4) as [[E R]|[E (o & Ho & Hn)]].
    + rewrite E. cbn [Nat.eqb]. destruct l as [|y l]; [now apply wn_empty|]. apply wn_under; auto; [discriminate|].
      intros o Ho. rewrite <- E2 by lia. now apply R.
    + destruct (Nat.eqb_spec (determine_order (d_shrink d)) 0); [contradiction|]. apply (wn_shrunk _ _ _ o); auto. rewrite <- E2 by lia. exact Hn.
Qed.
End Facts.

(** ** C90: the log of HPack and VPack *)
Theorem C90_hpack : forall (A : arith) w ad b sh gs (l : list (@Box.tnode A)),
  let t := TL KHList b sh gs l in
  warning "HList" l (fsub A (t_width (hpack w ad t)) (fsum (map t_width l))) (hpack_log w ad t).
Proof.
  intros. subst t. cbn [hpack t_width b_width hpack_log]. fold (hfold l dims0).
  assert (E : d_w (hfold l dims0) = fsum (map t_width l)) by exact (hfold_w l dims0).
  rewrite <- E. apply pack_log_spec. now apply hfold_tot.
Qed.
Theorem C90_vpack : forall (A : arith) h ad lim b sh gs (l : list (@Box.tnode A)),
  let t := TL KVList b sh gs l in
  match vpack h ad lim t with
  | LOk t' => exists x, natural_height lim l x /\ warning "VList" l (fsub A (t_height t') x) (vpack_log h ad lim t)
  | LPanic _ => vpack_log h ad lim t = []
  end.
Proof.
  intros. subst t. cbn [vpack vpack_log].
  destruct (vfold l dims0) as [d|] eqn:E; [|reflexivity].
  eexists. split.
  - unfold natural_height. cbn [vpack]. rewrite E. intros. eexists. split; reflexivity.
  - cbn [t_height b_height]. apply pack_log_spec. now apply (vfold_tot l dims0 d).
Qed.

(** ** Natural packing is silent *)
Lemma zero_add_sub (n : float) : finite n -> PrimFloat.eqb ((0 + n) - n) 0 = true.
Proof.
  intros F. destruct zero_int as [F0 R0].
  assert (P : finite (0 + n)%float /\ R_of (0 + n)%float = R_of n).
  { rewrite add_equiv. pose proof (Bplus_correct FloatOps.prec FloatOps.emax Hprec Hmax mode_NE (Prim2B 0) (Prim2B n) F0 F) as B.
    assert (Z0 : B2R (Prim2B 0) = 0%R) by exact R0. rewrite Z0, Rplus_0_l, round_generic in B; [|apply valid_rnd_round_mode|apply generic_format_B2R].
    rewrite Rlt_bool_true in B by apply abs_B2R_lt_emax. destruct B as (B1 & B2 & _). now rewrite B1, B2. }
  destruct P as [P1 P2].
  assert (Q : finite (0 + n - n)%float /\ R_of (0 + n - n)%float = 0%R).
  { rewrite sub_equiv. pose proof (Bminus_correct FloatOps.prec FloatOps.emax Hprec Hmax mode_NE (Prim2B (0 + n)) (Prim2B n) P1 F) as B.
    assert (E : (B2R (Prim2B (0 + n)) - B2R (Prim2B n) = 0)%R) by (change (R_of (0 + n)%float - R_of n = 0)%R; lra).
    rewrite E, round_0 in B by apply valid_rnd_round_mode.
    rewrite Rlt_bool_true in B by (rewrite Rabs_R0; apply bpow_gt_0). destruct B as (B1 & B2 & _). now rewrite B1, B2. }
  destruct Q as [Q1 Q2]. rewrite eqb_equiv. rewrite Beqb_correct; [|exact Q1|exact F0].
  apply Req_bool_true. change (R_of (0 + n - n)%float = R_of 0%float). rewrite Q2, R0. reflexivity.
Qed.

(** HListOf and VListOf (hence HCentered and VCentered) never warn, unless the
    sizes overflow: packing to the natural size leaves nothing to distribute. *)
Theorem C90_natural_float64 : forall (l : list (@Box.tnode float64)),
  (finite (t_width (hpack (A:=float64) f0 true (list_of KHList l))) -> hlist_log l = []) /\
  (forall t, vpack (A:=float64) f0 true (fpinf float64) (list_of KVList l) = LOk t -> finite (t_height t) -> vlist_log l = []).
Proof.
  intros l. split.
  - intros F. pose proof (C90_hpack float64 f0 true (new_box f0 f0 f0) f0 gset0 l) as W. cbv zeta in W.
    unfold list_of in F. rewrite (proj1 (proj2 (C23_hpack_width float64 f0 (new_box f0 f0 f0) f0 gset0 l))) in W, F.
    eapply warning_det; [exact W|]. apply wn_fits. apply zero_add_sub. exact (proj2 (add_finite _ _ F)).
  - intros t T F. unfold vlist_log, list_of in *. cbn [vpack vpack_log] in *. destruct (vfold l dims0) as [d|]; [|reflexivity].
    pose proof (f_equal t_height (f_equal (fun r => match r with LOk t => t | _ => new_kern (A:=float64) f0 end) T)) as T'. cbn [t_height b_height] in T'. clear T.
    rewrite <- T' in F. unfold pack_log.
    match type of F with finite (fadd _ _ ?x) => pose proof (zero_add_sub x (proj2 (add_finite _ _ F))) as Z; change (feqb float64 (fsub float64 (fadd float64 f0 x) x) f0 = true) in Z end.
    rewrite Z. reflexivity.
Qed.
Theorem C90_natural_exact : forall (l : list (@Box.tnode exact)),
  (fin (t_width (hpack (A:=exact) f0 true (list_of KHList l))) -> hlist_log l = []) /\
  (forall t, vpack (A:=exact) f0 true (fpinf exact) (list_of KVList l) = LOk t -> fin (t_height t) -> vlist_log l = []).
Proof.
  assert (Z : forall x : xq, fin (xadd (Fin 0) x) -> xeqb (xsub (xadd (Fin 0) x) x) (Fin 0) = true).
  { intros x (q & E). rewrite xadd_0_l in *. subst x. unfold xsub. cbn [xopp]. rewrite xadd_opp_fin. apply qeqb_refl. }
  intros l. split.
  - intros F. pose proof (C90_hpack exact f0 true (new_box f0 f0 f0) f0 gset0 l) as W. cbv zeta in W.
    unfold list_of in F. rewrite (proj1 (proj2 (C23_hpack_width exact f0 (new_box f0 f0 f0) f0 gset0 l))) in W, F.
    rewrite f0_exact in W, F. eapply warning_det; [exact W|]. apply wn_fits. unfold zero. rewrite f0_exact. exact (Z _ F).
  - intros t T F. unfold vlist_log, list_of in *. cbn [vpack vpack_log] in *. destruct (vfold l dims0) as [d|]; [|reflexivity].
    pose proof (f_equal t_height (f_equal (fun r => match r with LOk t => t | _ => new_kern (A:=exact) f0 end) T)) as T'. cbn [t_height b_height] in T'. clear T.
    rewrite <- T' in F. unfold pack_log.
    match type of F with fin (fadd _ _ ?x) => assert (ZZ : feqb exact (fsub exact (fadd exact f0 x) x) f0 = true) by (rewrite f0_exact in *; exact (Z x F)) end.
    rewrite ZZ. reflexivity.
Qed.

(** Centred material (HCentered) can be repacked to any width without a warning:
    the glue around it stretches and shrinks.  This is what fractions do. *)
Theorem C90_centred : forall (A : arith) w b sh gs (n : @Box.tnode A),
  (forall g, n <> TGlue g) -> ~ zero (fadd A (fadd A f0 f1) f1) -> ~ zero (fadd A (fadd A f0 (fopp A f1)) (fopp A f1)) ->
  hpack_log w false (TL KHList b sh gs [glue_ss; n; glue_ss]) = [].
Proof.
  intros A w b sh gs n NG N2 M2.
  pose proof (C90_hpack A w false b sh gs [glue_ss; n; glue_ss]) as W. cbv zeta in W.
  assert (S1 : tot_stretch [glue_ss; n; glue_ss] 1 = fadd A (fadd A f0 f1) f1) by (destruct n; try reflexivity; now destruct (NG g)).
  assert (S2 : tot_shrink [glue_ss; n; glue_ss] 1 = fadd A (fadd A f0 (fopp A f1)) (fopp A f1)) by (destruct n; try reflexivity; now destruct (NG g)).
  generalize dependent (hpack_log w false (TL KHList b sh gs [glue_ss; n; glue_ss])). intros lg W.
  inversion W as [Z|E|o NZ G Ho Ht|o NZ G Ho Ht|NZ NE G R|NZ NE G R]; try reflexivity.
  - exfalso. apply N2. rewrite <- S1. apply R. lia.
  - exfalso. apply M2. rewrite <- S2. apply R. lia.
Qed.
Corollary C90_centred_float64 : forall w b sh gs (n : @Box.tnode float64), (forall g, n <> TGlue g) ->
  hpack_log w false (TL KHList b sh gs [glue_ss; n; glue_ss]) = [].
Proof. intros w b sh gs n NG. apply C90_centred; [exact NG| |]; unfold zero; vm_compute; discriminate. Qed.

(** Vertical fill glue, as above the body of \sqrt and \overline, stretches
    without a warning but cannot shrink: [bar; fill; body] warns iff the height
    asked for is less than the natural one. *)
Theorem C90_fill : forall h lim b sh gs (bar body : @Box.tnode exact) t,
  (forall g, bar <> TGlue g) -> (forall g, body <> TGlue g) ->
  vpack h false lim (TL KVList b sh gs [bar; glue_fill; body]) = LOk t ->
  forall x, natural_height lim [bar; glue_fill; body] x -> fin h -> fin x ->
  vpack_log h false lim (TL KVList b sh gs [bar; glue_fill; body]) = (if xltb h x then ["underfull VList"] else []).
Proof.
  intros h lim b sh gs bar body t NB ND T x N (qh & ->) (qx & ->).
  pose proof (C90_vpack exact (Fin qh) false lim b sh gs [bar; glue_fill; body]) as W. cbv zeta in W. rewrite T in W.
  destruct W as (x' & N' & W).
  assert (x' = Fin qx) as ->.
  { destruct (N f0 b sh gs) as (t1 & T1 & H1). destruct (N' f0 b sh gs) as (t2 & T2 & H2). rewrite T1 in T2. injection T2 as <-.
    rewrite H1 in H2. cbn [fadd exact] in H2. rewrite f0_exact, !xadd_0_l in H2. congruence. }
  assert (HT : t_height t = Fin qh).
  { cbn [vpack] in T. destruct (vfold _ dims0); [|discriminate]. apply (f_equal (fun r => match r with LOk t => t_height t | _ => PInf end)) in T. cbn [t_height b_height] in T. congruence. }
  rewrite HT in W.
  assert (S2 : tot_stretch [bar; glue_fill; body] 2 = Fin 1) by (destruct bar, body; try reflexivity; try (exfalso; eapply NB; reflexivity); exfalso; eapply ND; reflexivity).
  assert (SH : rigid (A:=exact) (tot_shrink [bar; glue_fill; body])).
  { intros o Ho. unfold zero. assert (tot_shrink [bar; glue_fill; body] o = Fin 0) as ->; [|reflexivity].
    destruct o as [|[|[|[|]]]]; try lia; destruct bar, body; try reflexivity; try (exfalso; eapply NB; reflexivity); exfalso; eapply ND; reflexivity. }
  assert (LT : fltb exact f0 (fsub exact (Fin qh) (Fin qx)) = qltb qx qh).
  { cbn [fltb fsub exact]. rewrite f0_exact. unfold xsub. cbn [xopp xadd xltb]. apply eq_true_iff_eq. rewrite !qltb_iff.
    split; intros H; [apply Qclt_minus_iff|apply Qclt_minus_iff in H]; exact H. }
  assert (ZZ : zero (A:=exact) (fsub exact (Fin qh) (Fin qx)) <-> qh = qx).
  { rewrite zero_iff. cbn [fsub exact]. unfold xsub. cbn [xopp xadd]. split; [intros H|intros ->; f_equal; ring].
    assert (H' : (qh + - qx = 0)%Qc) by congruence. replace qh with (qh + - qx + qx)%Qc by ring. rewrite H'. ring. }
  cbn [xltb]. destruct (qltb qh qx) eqn:E.
  - apply qltb_iff in E. assert (NZ : qh <> qx) by (intros ->; now apply Qclt_not_eq in E).
    eapply warning_det; [exact W|]. apply (wn_under "VList"); [now rewrite ZZ|discriminate| |exact SH].
    rewrite LT. destruct (qltb qx qh) eqn:G; [|reflexivity]. apply qltb_iff in G. exfalso. apply (Qclt_not_le _ _ E). now apply Qclt_le_weak.
  - eapply warning_det; [exact W|]. destruct (Qc_eq_dec qh qx) as [->|NE]; [now apply wn_fits, ZZ|].
    apply (wn_stretched _ _ _ 2); [now rewrite ZZ| |lia|rewrite S2; discriminate].
    rewrite LT. apply qltb_iff. destruct (Qclt_le_dec qx qh) as [G|G]; [exact G|]. exfalso.
    apply Qcle_lt_or_eq in G as [G|G]; [|now apply NE]. apply qltb_iff in G. congruence.
Qed.

(** Boxes of widths 1 and 2 packed into 4: the list has to be stretched and
    nothing in it stretches, so one line is written, and it says "overfull". *)
Example C90_case :
  hpack_log (A:=float64) 4%float false (list_of KHList [hbox 1; hbox 2]%float) = ["overfull HList"] /\
  hpack_log (A:=float64) 2%float false (list_of KHList [hbox 1; hbox 2]%float) = ["underfull HList"] /\
  hpack_log (A:=float64) 4%float false (list_of KHList [hbox 1; glue_fill; hbox 2]%float) = [] /\
  hpack_log (A:=float64) 2%float false (list_of KHList [hbox 1; glue_fill; hbox 2]%float) = ["underfull HList"] /\
  (* a space that can stretch by 2 is enough, and yet there is a warning *)
  hpack_log (A:=float64) 4%float false (list_of KHList [hbox 1; TGlue (mk_glue 0%Z 0 2 0 0 0); hbox 2]%float) = ["overfull HList"] /\
  hlist_log (A:=float64) [hbox 0.1; hbox 0.2; hbox 0.3]%float = [] /\
  vpack_log (A:=float64) 1%float false infinity (list_of KVList [vbox 1 1; vbox 1 0]%float) = ["underfull VList"].
Proof. vm_compute. repeat split. Qed.
