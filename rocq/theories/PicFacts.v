(** Proof of the picture semantics (PicSpec.v). *)
From Coq Require Import ZArith String Ascii List Bool Lia QArith Qround Qcanon Lqa.
From Verif Require Import Utf8 Token Ast SetTable Parser Symbols PropSymbols TreeSpec Arith Exact OrderLaws Box Ship ShipSpec ShipFacts ShipFacts2
  PackSpec PackFacts ExactFacts PropPack PropShip Mtex MtexTable MtexSpec FracSpec MtexFacts MtexFacts2 MtexFacts4 MtexFacts5 PropMtex ReadSpec ReadFacts
  RadFacts GeomSpec GeomFacts GeomFacts2 SizeSpec SizeFacts PicSpec.
Import ListNotations.
Local Open Scope string_scope.
Local Open Scope list_scope.
Local Open Scope Z_scope.

(** ** Rounding *)
Lemma nearest_qround q : nearest q = qround q.
Proof.
  unfold nearest, qround. destruct (qltb q 0) eqn:E, (Qle_bool 0 q) eqn:E2; try reflexivity; exfalso.
  - apply qltb_iff in E. apply Qle_bool_iff in E2. unfold Qclt in E. change (this 0%Qc) with 0%Q in E. lra.
  - apply qltb_false in E. apply not_true_iff_false in E2. apply E2, Qle_bool_iff. exact E.
Qed.
Lemma qround_bounds q z : (inject_Z z <= this q -> (z <= qround q)%Z)%Q /\ (this q <= inject_Z z -> (qround q <= z)%Z)%Q.
Proof.
  pose proof (qround_bound q) as B.
  assert (K : forall a b : Z, (inject_Z a - (1 # 2) <= inject_Z b)%Q -> (a <= b)%Z).
  { intros a b Hab. destruct (Z.le_gt_cases a b) as [|G]; [assumption|exfalso].
    assert (inject_Z b <= inject_Z (a - 1))%Q by (rewrite <- Zle_Qle; lia).
    unfold Z.sub in H. rewrite inject_Z_plus in H. change (inject_Z (- (1))) with (-1)%Q in H. lra. }
  split; intros H; apply K; lra.
Qed.
Lemma snap_exact q : fofZ exact (fround exact (clamp (A:=exact) (Fin q))) = Fin (snap q).
Proof.
  unfold snap. rewrite nearest_qround, fofZ_exact. unfold xofZ. do 2 apply f_equal. apply f_equal.
  unfold clamp. cbn [fltb exact fofZ xofZ xltb fround].
  destruct (qltb q (Q2Qc (inject_Z (-1000000000)))) eqn:E1.
  - apply qltb_iff in E1. cbn [xround]. assert (Q : (qround q <= -1000000000)%Z).
    { apply qround_bounds. unfold Qclt in E1. cbn [this Q2Qc] in E1. rewrite Qred_correct in E1. lra. }
    rewrite Z.min_r, Z.max_l by lia. reflexivity.
  - destruct (qltb (Q2Qc (inject_Z 1000000000)) q) eqn:E2; cbn [xround].
    + apply qltb_iff in E2. assert (Q : (1000000000 <= qround q)%Z).
      { apply qround_bounds. unfold Qclt in E2. cbn [this Q2Qc] in E2. rewrite Qred_correct in E2. lra. }
      rewrite Z.min_l, Z.max_r by lia. reflexivity.
    + apply qltb_false in E1, E2. unfold Qcle in E1, E2. cbn [this Q2Qc] in E1, E2. rewrite Qred_correct in E1, E2.
      pose proof (proj1 (qround_bounds q _) E1). pose proof (proj2 (qround_bounds q _) E2). lia.
Qed.
Lemma snap_0 : snap 0 = 0%Qc. Proof. apply Qc_is_canon. reflexivity. Qed.

(** ** Scaled trees *)
Lemma xmul_assoc_pos (w : xq) k k' : pos k -> pos k' -> xmul (xmul w (Fin k)) (Fin k') = xmul w (Fin (k * k')).
Proof.
  intros H H'. assert (HH : pos (k * k')).
  { unfold pos in *. rewrite <- (Qcmult_0_l k'). now apply Qcmult_lt_compat_r. }
  destruct w as [q| | |]; cbn [xmul]; rewrite ?xmul_inf_pos by assumption; cbn [xmul]; rewrite ?xmul_inf_pos by assumption; try reflexivity.
  apply f_equal. ring.
Qed.
Lemma scaled_scaled k k' n n' (t : @Box.tnode exact) : pos k -> pos k' ->
  scaled (Fin k') n' (scaled (Fin k) n t) = scaled (Fin (k * k')) (n + n') t.
Proof.
  intros H H'.
  assert (E : forall w, fmul exact (fmul exact w (Fin k)) (Fin k') = fmul exact w (Fin (k * k'))) by (intros; now apply xmul_assoc_pos).
  induction t as [b|c|c|b|gl|sz w|kk b sh gs l IH] using tnode_ind'; cbn [scaled];
    cbn [b_size b_width b_height b_depth gs_set gs_sign gs_order gs_ratio c_sym c_size c_width c_height c_depth c_metrics c_font c_dpi c_math
         f_name f_type f_size g_size g_width g_stretch g_stretch_order g_shrink g_shrink_order]; rewrite !E; rewrite <- ?Z.add_assoc; try reflexivity.
  f_equal. rewrite map_map. induction IH as [|y l Hy _ IHl]; [reflexivity|]. cbn [map]. rewrite Hy, IHl. reflexivity.
Qed.

Section Pic.
Context {S : Type}.
Variable range : Symbols.gset -> list string.
Variable be : @backend exact S.
Variable parse_float : string -> option xq.
Variable M : measures.
Variables (expr : string) (size dpi : Qc).
Notation tnode := (@Box.tnode exact).
Notation state := (@Box.state exact).
Notation face := (face size).
Notation stt typ := (at_font dpi (face typ)).
Hypothesis FR : fair range.
Hypothesis MB : measured_by M size dpi be parse_float.
Notation rep := (rep M dpi).
Notation ink := (ink dpi).

(** ** What boxes look like *)
Definition young (t : tnode) : Prop := accent_free t /\ Forall (fun n => n <= 6) (sizes t).
Definition plain (t : tnode) : Prop := match t with TGlue _ => False | _ => True end.
(** In a horizontal list. *)
Definition child (t : tnode) (f : figure) : Prop := young t /\ plain t /\
  forall k n ox oy bx gs x v pre left, pos k -> hpos gs x pre = Fin left ->
    hdraw (Fin ox) (Fin oy) bx gs x (Fin v) pre (scaled (Fin k) n t) = ink k (left + ox) (v + oy) f.
Definition rep2 (p : shape) (t : tnode) : Prop := rep (fst p) t /\ child t (snd p).
(** A horizontal list. *)
Definition looks (t : tnode) (f : figure) : Prop := young t /\
  forall k n ox oy bx x v, pos k ->
    draws (Fin ox) (Fin oy) false bx (scaled (Fin k) n t) (Fin x) (Fin v) = ink k (x + ox) (v + oy) f.
Definition hb (t : tnode) (b : boxed) : Prop := hx t (fst b) /\ looks t (snd b).
(** A vertical list at the position given by its shift. *)
Definition vlooks (t : tnode) (f : figure) : Prop := young t /\
  forall k n ox oy x v, pos k ->
    draws (Fin ox) (Fin oy) true (t_box (scaled (Fin k) n t)) (scaled (Fin k) n t) (Fin x) (Fin v) = ink k (x + ox) (v + oy) f.

Lemma young_list k b sh gs l : young (TL k b sh gs l) <-> b_size b <= 6 /\ Forall young l.
Proof.
  unfold young. cbn [accent_free sizes]. rewrite accent_free_all. split.
  - intros (H1 & H2). inversion H2 as [|? ? H3 H4]; subst. split; [assumption|]. rewrite Forall_flat_map in H4.
    rewrite Forall_forall in *. intros x I. auto.
  - intros (H1 & H2). split; [eapply Forall_impl; [|exact H2]; now intros ? []|]. constructor; [assumption|].
    rewrite Forall_flat_map. eapply Forall_impl; [|exact H2]. now intros ? [].
Qed.

Lemma looks_child k b sh gs l f : k = KHList -> looks (TL k b (Fin sh) gs l) f -> child (TL k b (Fin sh) gs l) (Move 0 sh f).
Proof.
  intros -> (Y & D). split; [exact Y|]. split; [exact I|]. intros kk n ox oy bx gs' x v pre left K E.
  cbn [scaled]. unfold hdraw. rewrite E. cbn [is_vlist PicSpec.ink].
  specialize (D kk n ox oy (mk_box (b_size b + n) (fmul exact (b_width b) (Fin kk)) (fmul exact (b_height b) (Fin kk)) (fmul exact (b_depth b) (Fin kk))) left (v + sh * kk)%Qc K).
  cbn [scaled] in D. change (fadd exact (Fin v) (fmul exact (Fin sh) (Fin kk))) with (Fin (v + sh * kk)). rewrite D. f_equal; ring.
Qed.
Lemma vlooks_child b sh gs l f : vlooks (TL KVList b (Fin sh) gs l) f -> child (TL KVList b (Fin sh) gs l) (Move 0 sh f).
Proof.
  intros (Y & D). split; [exact Y|]. split; [exact I|]. intros kk n ox oy bx gs' x v pre left K E.
  cbn [scaled]. unfold hdraw. rewrite E. cbn [is_vlist PicSpec.ink].
  specialize (D kk n ox oy left (v + sh * kk)%Qc K).
  cbn [scaled t_box] in D. change (fadd exact (Fin v) (fmul exact (Fin sh) (Fin kk))) with (Fin (v + sh * kk)). rewrite D. f_equal; ring.
Qed.
Lemma child_eq t f g : child t f -> (forall k x y, ink k x y f = ink k x y g) -> child t g.
Proof. intros (H1 & H2 & H3) E. split; [exact H1|]. split; [exact H2|]. intros. rewrite <- E. eauto. Qed.
Lemma move_00 k x y f : ink k x y (Move 0 0 f) = ink k x y f.
Proof. cbn [PicSpec.ink]. f_equal; ring. Qed.
Lemma hb_rep2 t b : hb t b -> rep2 (Solid (fst b), snd b) t.
Proof.
  intros (H & L). split; [now apply hx_rep|]. cbn [snd]. pose proof H as (bx & gs & l & -> & _).
  eapply child_eq; [apply looks_child; [reflexivity|exact L]|]. intros. apply move_00.
Qed.

(** ** Rows *)
Lemma scaled_own k n p f t : rep2 (p, f) t -> forall gs pre q,
  right_of gs pre (scaled (Fin k) n t) (Fin q) = Fin (q + k * match p with Glyph _ _ _ => own t | Solid e => x_w e end).
Proof.
  intros [R (_ & PL & _)] gs pre q. cbn [fst] in R.
  assert (W : t_width t = Fin (match p with Glyph _ _ _ => own t | Solid e => x_w e end)).
  { destruct p as [s ft m|e]; cbn [SizeFacts.rep] in R.
    - destruct R as (c & -> & _ & _ & _ & _ & (w & EW) & _). unfold own. cbn [t_width]. now rewrite EW.
    - destruct R as (_ & AD). destruct (AD 0 0 0 zeros zeros (Qcle_refl _) (Qcle_refl _))%Qc as (p' & q' & E).
      apply (f_equal d_w) in E. cbn [d_w] in E. replace (0 + x_w e)%Qc with (x_w e) in E by ring. rewrite <- E.
      destruct t as [b|c|c|b|g|sz w|kk b sh g l]; cbn [hpack_dims]; try destruct (_ || _); cbn [d_w t_width]; symmetry; apply xadd_0_l. }
  assert (SW : right_of gs pre (scaled (Fin k) n t) (Fin q) = fadd exact (Fin q) (t_width (scaled (Fin k) n t))).
  { destruct t; try reflexivity. destruct PL. }
  rewrite SW, scaled_width, W. change (fadd exact (Fin q) (Fin (match p with Glyph _ _ _ => own t | Solid e => x_w e end * k)) =
    Fin (q + k * match p with Glyph _ _ _ => own t | Solid e => x_w e end)). fins. apply f_equal. ring.
Qed.

Lemma row_each ps : forall l s l' s', Forall2 rep2 ps l -> kern_list be l s = LOk (l', s') ->
  forall k n ox oy bx gs x v pre a, pos k -> hpos gs (Fin x) pre = Fin (x + k * a) ->
  each (hdraw (Fin ox) (Fin oy) bx gs (Fin x) (Fin v)) pre (map (scaled (Fin k) n) l') = ink k (x + ox) (v + oy) (lay M a ps).
Proof.
  induction ps as [|[p f] ps IH]; intros l s l' s' F2 E k n ox oy bx gs x v pre a K HP; inversion F2 as [|? t ? l0 R F2']; subst.
  - cbn [kern_list] in E. apply ret_ok in E as [-> _]. reflexivity.
  - cbn [kern_list] in E. apply bind_ok in E as (d & s1 & E1 & E). apply bind_ok in E as (r & s2 & E2 & E). apply ret_ok in E as [-> _].
    assert (D : d = Fin (kern_after M p (hd_error (map fst ps)) (own t))).
    { eapply kerning_rep; [exact MB|exact (proj1 R)| |exact E1]. destruct F2' as [|x0 y0 ? ? R']; cbn [hd_error map]; [exact I|exact (proj1 R')]. }
    pose proof (scaled_own k n _ _ _ R) as SO. destruct R as (R & (_ & _ & CH)). cbn [fst snd] in *.
    cbn [lay PicSpec.ink].
    assert (ST : (step M p ps = match p with Glyph _ _ _ => own t | Solid e => x_w e end + kern_after M p (hd_error (map fst ps)) (own t))%Qc).
    { unfold step, kern_after. destruct p as [s0 f0 m|e]; [|ring]. destruct ps as [|[[]] ps']; cbn [hd_error map fst]; ring. }
    assert (HD : forall rest, each (hdraw (Fin ox) (Fin oy) bx gs (Fin x) (Fin v)) pre (scaled (Fin k) n t :: rest) =
      ink k (x + ox + k * a) (v + oy + k * 0) f ++ each (hdraw (Fin ox) (Fin oy) bx gs (Fin x) (Fin v)) (pre ++ [scaled (Fin k) n t]) rest).
    { intros rest. cbn [each]. rewrite (CH k n ox oy bx gs (Fin x) v pre _ K HP). apply f_equal2; [|reflexivity]. f_equal; ring. }
    destruct (negb (feqb exact d f0)) eqn:Z; cbn [map]; rewrite HD; apply f_equal2; try reflexivity.
    + rewrite D. cbn [each map scaled new_kern]. cbn [hdraw app].
      eapply IH; [exact F2'|exact E2|exact K|]. rewrite !hpos_snoc, HP, SO. unfold right_of. cbn [t_width].
      fins. apply f_equal. rewrite ST. ring.
    + assert (K0 : kern_after M p (hd_error (map fst ps)) (own t) = 0%Qc).
      { apply negb_false_iff in Z. rewrite D in Z. apply zero_iff in Z. now apply fin_inj in Z. }
      eapply IH; [exact F2'|exact E2|exact K|]. rewrite hpos_snoc, HP, SO. apply f_equal. rewrite ST, K0. ring.
Qed.
Lemma rep2_fst ps l : Forall2 rep2 ps l -> Forall2 rep (map fst ps) l.
Proof. induction 1 as [|? ? ? ? H]; cbn [map]; constructor; [apply H|assumption]. Qed.
Lemma rep2_young ps l : Forall2 rep2 ps l -> Forall young l.
Proof. induction 1 as [|? ? ? ? H]; constructor; [apply H|assumption]. Qed.
Lemma kern_young l : forall s l' s', Forall young l -> kern_list be l s = LOk (l', s') -> Forall young l'.
Proof.
  induction l as [|x l IH]; intros s l' s' F E; cbn [kern_list] in E.
  - apply ret_ok in E as [-> _]. constructor.
  - apply bind_ok in E as (d & s1 & _ & E). apply bind_ok in E as (r & s2 & E2 & E). apply ret_ok in E as [-> _].
    inversion F; subst. apply IH in E2; [|assumption]. destruct (negb _); repeat constructor; try assumption; try lia; try apply H1.
Qed.
Lemma row_hb ps l s t s' : Forall2 rep2 ps l -> hlist_of be l true s = LOk (t, s') -> hb t (box_of M ps).
Proof.
  intros F2 E. split; [eapply hlist_row; [exact MB|apply rep2_fst; exact F2|exact E]|].
  unfold hlist_of in E. apply bind_ok in E as (l' & s1 & E1 & E). apply ret_ok in E as [-> _].
  unfold list_of. cbn [hpack]. split.
  - apply young_list. cbn [b_size new_box]. split; [lia|]. eapply kern_young; [|exact E1]. eapply rep2_young; exact F2.
  - intros k n ox oy bx x v K. cbn [scaled]. rewrite draws_unfold. cbn [box_of snd].
    eapply row_each; [exact F2|exact E1|exact K|]. unfold hpos. cbn [after]. apply f_equal. ring.
Qed.
Lemma natural_hb ps l t (s : S) : Forall2 rep2 ps l -> (forall x, In x l -> stiff x) -> natural_h l t -> hb t (box_of M ps).
Proof.
  intros F2 ST N. apply (row_hb ps l s t s F2). unfold hlist_of, mbind. rewrite (kern_stiff be eq_refl l ST s). rewrite N. reflexivity.
Qed.

(** ** Shrinking *)
Lemma shrink_hb t b s t' s' : hb t b -> shrink be t s = LOk (t', s') -> hb t' (small b).
Proof.
  intros (H & Y & L) E. split; [eapply shrink_hx; eauto|]. destruct Y as [Y1 Y2].
  rewrite (shrink_scaled be t Y1 Y2) in E. assert (t' = scaled shrink_factor (-1) t) by (inversion E; reflexivity). subst t'.
  rewrite shrink_exact. split.
  - split; [now apply accent_free_scaled|]. rewrite sizes_scaled. rewrite Forall_forall in *. intros z Hz.
    apply in_map_iff in Hz as (z' & <- & Hz'). specialize (Y2 _ Hz'). cbn in Y2. lia.
  - intros k n ox oy bx x v K. assert (P7 : pos (Q2Qc (7 # 10))) by reflexivity.
    rewrite scaled_scaled by assumption. cbn [small snd PicSpec.ink].
    rewrite L; [f_equal; ring|]. unfold pos in *. rewrite <- (Qcmult_0_l k). now apply Qcmult_lt_compat_r.
Qed.
Lemma style_hb sty num b s num' s' : hb num b -> style_shrink be sty num s = LOk (num', s') ->
  hb num' (match sty with DisplayStyle => b | TextStyle => small b end).
Proof. intros H E. destruct sty; [apply ret_ok in E as [-> _]; exact H|]. eapply shrink_hb; eauto. Qed.

(** ** Glyphs and spaces *)
Lemma char_rep2 sym f z m s c s' : f_size f = Fin z -> new_char be sym (at_font dpi f) m s = LOk (c, s') -> rep2 (mark sym f m) (TChar c).
Proof.
  intros FZ E. split; [eapply char_rep; eauto|].
  unfold new_char in E. cbn [at_font st_font st_dpi] in E. apply bind_ok in E as (x & s1 & E1 & E). apply ret_ok in E as [-> _].
  split; [split; [exact I|repeat constructor]|]. { cbn. lia. }
  split; [exact I|]. intros k n ox oy bx gs x0 v pre left K HP. cbn [scaled hdraw]. rewrite HP. cbn [mark snd PicSpec.ink]. reflexivity.
Qed.
Lemma space_rep2 w : rep2 (space w) (new_kern (Fin w)).
Proof.
  split; [apply rep_kern|]. split; [split; [exact I|repeat constructor; lia]|]. split; [exact I|]. intros. reflexivity.
Qed.
Lemma hbox_rep2 w : rep2 (space w) (hbox (Fin w)).
Proof.
  split; [apply rep_hbox|]. split; [split; [exact I|repeat constructor; cbn; lia]|]. split; [exact I|]. intros. reflexivity.
Qed.

Lemma make_space2 typ (q : Qc) s t s' : make_space be (stt typ) (Fin q) s = LOk (t, s') -> rep2 (space (em M size * q)) t.
Proof. intros E. apply (space_ok be parse_float M size dpi MB) in E as ->. apply space_rep2. Qed.
Lemma space_frat2 typ n d s t s' : d <> 0 -> make_space be (stt typ) (frat n d) s = LOk (t, s') -> rep2 (space (em_over M size n d)) t.
Proof. intros D. rewrite frat_fin by assumption. intros E. apply make_space2 in E. exact E. Qed.
Lemma kern_child w t : rep (Solid (gap w)) t -> (exists z x, t = TKern z x /\ z <= 6) -> rep2 (space w) t.
Proof.
  intros R (z & x & -> & Z6). split; [exact R|]. split; [split; [exact I|repeat constructor; assumption]|]. split; [exact I|]. intros. reflexivity.
Qed.
Lemma handle_space2 typ name s t s' : handle_space be name (stt typ) s = LOk (t, s') -> rep2 (space (space_of M size name)) t.
Proof.
  intros E. apply kern_child; [eapply handle_space_ok; eauto|].
  unfold handle_space in E. destruct (assoc name space_width) as [[n d]|]; [|discriminate E].
  apply make_space_ok in E as (m & _ & ->). unfold new_kern. do 2 eexists. split; [reflexivity|lia].
Qed.

Lemma symbol2 typ m sym pos s t s' : handle_symbol range be expr sym pos (stt typ) m s = LOk (t, s') ->
  Forall2 rep2 (symbol_shape M expr size m typ sym pos) [t].
Proof.
  intros E. unfold handle_symbol in E. apply bind_ok in E as (c & s1 & E1 & E). apply (char_rep2 _ _ size) in E1; [|reflexivity].
  assert (SP : is_spaced range sym = one_of (BinaryOperators_list ++ RelationSymbols_list ++ ArrowSymbols_list) sym).
  { apply eq_iff_eq_true. rewrite (C20_is_spaced range sym FR), one_of_in, !in_app_iff. reflexivity. }
  unfold symbol_shape. rewrite <- SP. destruct (is_spaced range sym).
  - apply bind_ok in E as (bf & s2 & E2 & E). apply mlift_ok in E2. unfold obool_lres in E2.
    destruct (slice expr 0 pos) as [b0|] eqn:SL; [|discriminate E2]. injection E2 as ->.
    rewrite (after_opening_ok _ _ _ SL), set_has_list in E.
    destruct (one_of BinaryOperators_list sym && after_opening expr pos).
    + apply ret_ok in E as [-> _]. constructor; [exact E1|constructor].
    + apply bind_ok in E as (k1 & s3 & K1 & E). apply bind_ok in E as (k2 & s4 & K2 & E).
      apply space_frat2 in K1; [|discriminate]. apply space_frat2 in K2; [|discriminate].
      constructor; [|constructor]. apply (hb_rep2 _ (box_of M _)). eapply row_hb; [|exact E].
      constructor; [exact K1|]. constructor; [exact E1|]. constructor; [exact K2|constructor].
  - rewrite set_has_list in E. destruct (one_of PunctuationSymbols_list sym) eqn:PU.
    + destruct (String.eqb sym ".") eqn:DOT; [|discriminate E].
      apply bind_ok in E as (af & s2 & E2 & E). apply mlift_ok in E2. unfold obool_lres in E2.
      destruct (slice expr pos (zlen expr)) as [b0|] eqn:SL; [|discriminate E2]. injection E2 as ->.
      cbv zeta in E. rewrite (decimal_ok _ _ _ SL) in E. destruct (decimal_point expr pos).
      * apply ret_ok in E as [-> _]. constructor; [exact E1|constructor].
      * apply bind_ok in E as (k1 & s3 & K1 & E). apply space_frat2 in K1; [|discriminate].
        constructor; [|constructor]. apply (hb_rep2 _ (box_of M _)). eapply row_hb; [|exact E].
        constructor; [exact E1|]. constructor; [exact K1|constructor].
    + apply ret_ok in E as [-> _].
      assert (DN : String.eqb sym "." = false).
      { destruct (String.eqb sym ".") eqn:DOT; [|reflexivity]. apply String.eqb_eq in DOT. subst sym. vm_compute in PU. discriminate PU. }
      rewrite DN. constructor; [exact E1|constructor].
Qed.

Lemma chars2 typ m text s ns s' : new_chars be text (stt typ) m s = LOk (ns, s') ->
  Forall2 rep2 (map (letter_shape size m typ) (letters text)) ns.
Proof.
  unfold new_chars. change (rune_strings text) with (letters text). revert s ns s'.
  induction (letters text) as [|x l IH]; intros s ns s' E; cbn [mmap] in E.
  - apply ret_ok in E as [-> _]. constructor.
  - apply bind_ok in E as (c & s1 & E1 & E). apply bind_ok in E as (r & s2 & E2 & E). apply ret_ok in E as [-> _].
    apply bind_ok in E1 as (c0 & s3 & E3 & E1). apply ret_ok in E1 as [-> _]. cbn [map]. constructor; [|eapply IH; exact E2].
    apply (char_rep2 _ _ size) in E3; [|reflexivity]. exact E3.
Qed.

(** ** Delimiters *)
Lemma delim2 c typ H D s t s' : In c ["("; ")"; "\__sqrt__"] ->
  auto_height_char be c (Fin H) (Fin D) (stt typ) f0 s = LOk (t, s') -> rep2 (delim M c (face typ) H D) t.
Proof.
  intros IC E. split; [eapply delimiter_rep; eauto|]. destruct MB as (MM & _ & _ & _ & MF). unfold auto_height_char in E.
  apply bind_ok in E as (x & s0 & E0 & E). apply bind_ok in E as (ch & s1 & E1 & E).
  assert (A1 : exists x1 s2, be_metrics be c (face typ) (Fin dpi) true s0 = LOk (x1, s2)).
  { unfold new_char in E1. apply bind_ok in E1 as (x1 & s2 & E1 & _). exists x1, s2. exact E1. }
  destruct A1 as (x1 & s2 & A1).
  apply (char_rep be parse_float M size dpi MB _ _ size) in E1 as (c0 & [= <-] & _ & _ & _ & _ & _ & EH & ED); [|reflexivity].
  assert (NE : negb (String.eqb (f_name (st_font (stt typ))) "") = true) by reflexivity.
  rewrite NE in E. replace (feqb exact f0 f0) with true in E by reflexivity. rewrite EH, ED in E.
  assert (KE : fdiv exact (fadd exact (Fin H) (Fin D)) (fadd exact (Fin (up M c (face typ) true)) (Fin (down M c (face typ) true))) =
     Fin ((H + D) / (up M c (face typ) true + down M c (face typ) true))).
  { fins. cbn [fdiv exact xdiv]. destruct (qeqb _ 0) eqn:Q; [|reflexivity]. apply qeqb_iff in Q. destruct (MF c (face typ) _ _ _ IC eq_refl A1 Q). }
  rewrite KE in E. unfold delim. set (k := ((H + D) / (up M c (face typ) true + down M c (face typ) true))%Qc) in *.
  change (mk_state (scale_font (Fin k) (st_font (stt typ))) (st_dpi (stt typ))) with (at_font dpi (resize k (face typ))) in E.
  apply bind_ok in E as ((ch2, sc) & s3 & E3 & E). apply bind_ok in E3 as (ch' & s4 & E4 & E3). apply ret_ok in E3 as [E3 _].
  pose proof (f_equal fst E3) as X1. pose proof (f_equal snd E3) as X2. cbn [fst snd] in X1, X2. clear E3. subst ch2 sc.
  apply (char_rep2 _ _ (size * k)) in E4; [|reflexivity]. cbn [fst snd] in E. apply bind_ok in E as (hl & s6 & E6 & E). apply ret_ok in E as [-> _].
  assert (ED' : c_depth ch' = Fin (down M c (resize k (face typ)) true)).
  { destruct E4 as [(c1 & Q & R) _]. assert (ch' = c1) by (inversion Q; reflexivity). subst c1. tauto. }
  apply (row_hb [mark c (resize k (face typ)) true]) in E6; [|constructor; [exact E4|constructor]].
  rewrite ED'. fins. destruct E6 as ((b & gs & l & -> & _) & L). cbn [set_shift snd].
  eapply child_eq; [apply looks_child; [reflexivity|]|].
  - destruct L as (Y & L). split; [exact Y|]. intros kk n ox oy bx x0 v K. specialize (L kk n ox oy bx x0 v K). cbn [scaled] in L |- *.
    rewrite draws_unfold in L |- *. exact L.
  - intros. cbn [box_of snd lay mark PicSpec.ink]. rewrite app_nil_r. do 2 f_equal; apply f_equal; ring.
Qed.
End Pic.
