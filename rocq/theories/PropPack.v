(** C23-C30: packing, glue, kerning and scaling. *)
From Coq Require Import ZArith Bool List String Ascii Lia QArith Qcanon Floats.
From Verif Require Import Arith Exact OrderLaws Box ShipSpec ShipFacts ShipFacts2 PackSpec PackFacts ExactFacts.
Import ListNotations.
Local Open Scope Z_scope.
Local Open Scope list_scope.

(** ** C23: HPack sets the width *)
Theorem C23_hpack_width : forall (A : arith) (w : Arith.F A) b sh gs (l : list (@Box.tnode A)),
  let t := TL KHList b sh gs l in
  t_width (hpack w false t) = w /\
  t_width (hpack w true t) = fadd A w (fsum (map t_width l)) /\
  (forall ad, t_nodes (hpack w ad t) = l /\ t_shift (hpack w ad t) = sh).
Proof.
  intros. subst t. cbn. repeat split.
  f_equal. exact (hfold_w l dims0).
Qed.

(** A concrete case in float64. *)
Example C23_case :
  (t_width (hpack (A:=float64) 1 true (TL KHList (new_box 0 0 0) 0 gset0 [new_kern 0.5; hbox 0.25])) = 1.75)%float.
Proof. vm_compute. reflexivity. Qed.

(** ** C24: a packed horizontal list encloses its children *)
Theorem C24_hpack_encloses : forall (A : arith), order_laws A ->
  forall w ad b sh gs (l : list (@Box.tnode A)),
  let t := hpack w ad (TL KHList b sh gs l) in
  (Forall num (heights l) -> is_max (t_height t) (heights l)) /\
  (Forall num (depths l) -> is_max (t_depth t) (depths l)).
Proof.
  intros A O w ad b sh gs l t. subst t. cbn [hpack t_height t_depth b_height b_depth].
  fold (hfold l dims0). rewrite hfold_h, hfold_d.
  split; intros H; unfold heights, depths in *; inversion H; subst; cbn [tl];
    apply fold_max_ub; assumption.
Qed.
Corollary C24_float64 : forall w ad b sh gs l,
  let t := hpack (A:=float64) w ad (TL KHList b sh gs l) in
  (Forall num (heights l) -> is_max (t_height t) (heights l)) /\
  (Forall num (depths l) -> is_max (t_depth t) (depths l)).
Proof. exact (C24_hpack_encloses float64 float64_order). Qed.
Corollary C24_exact : forall w ad b sh gs l,
  let t := hpack (A:=exact) w ad (TL KHList b sh gs l) in
  (Forall num (heights l) -> is_max (t_height t) (heights l)) /\
  (Forall num (depths l) -> is_max (t_depth t) (depths l)).
Proof. exact (C24_hpack_encloses exact exact_order). Qed.

(** A rule of running height next to a shifted list and a deep box. *)
Definition c24_list : list (@Box.tnode float64) :=
  [new_rule 1 infinity infinity; vbox 2 3; TL KHList (new_box 5 4 1) 1.5 gset0 []]%float.
Example C24_case : Forall num (heights c24_list) /\ heights c24_list = [0; 2; 2.5]%float /\
  (t_height (hpack (A:=float64) 0 true (TL KHList (new_box 0 0 0) 0 gset0 c24_list)) = 2.5)%float.
Proof. split; [repeat constructor|split; reflexivity]. Qed.

(** ** C25: VPack *)
Theorem C25_vpack_dims : forall (A : arith), order_laws A ->
  forall h ad lim b sh gs (l : list (@Box.tnode A)) t,
  vpack h ad lim (TL KVList b sh gs l) = LOk t ->
  (Forall num (widths l) -> is_max (t_width t) (widths l)) /\
  t_depth t = (if fltb A lim (last_depth l) then lim else last_depth l) /\
  (ad = false -> t_height t = h) /\
  t_nodes t = l.
Proof.
  intros A O h ad lim b sh gs l t H. cbn [vpack] in H.
  destruct (vfold l dims0) as [d|] eqn:E; try discriminate. inversion H; subst. clear H.
  cbn [t_width t_depth t_height b_width b_depth b_height t_nodes].
  rewrite (vfold_w _ _ _ E), (vfold_d _ _ _ E). cbn [d_w d_d dims0].
  split; [intros Hn; unfold widths in *; inversion Hn; subst; apply fold_max_ub; assumption|].
  split; [reflexivity|]. split; [intros ->; reflexivity|reflexivity].
Qed.
Corollary C25_vpack_float64 : forall h ad lim b sh gs l t,
  vpack (A:=float64) h ad lim (TL KVList b sh gs l) = LOk t ->
  (Forall num (widths l) -> is_max (t_width t) (widths l)) /\
  t_depth t = (if PrimFloat.ltb lim (last_depth l) then lim else last_depth l) /\
  (ad = false -> t_height t = h) /\
  t_nodes t = l.
Proof. exact (C25_vpack_dims float64 float64_order). Qed.

(** VPack panics exactly on lists containing a character. *)
Theorem C25_vpack_panics : forall (A : arith) h ad lim b sh gs (l : list (@Box.tnode A)),
  (exists e, vpack h ad lim (TL KVList b sh gs l) = LPanic e) <->
  exists c, In (TChar c) l \/ In (TAccent c) l.
Proof.
  intros. cbn [vpack]. split.
  - intros (e & H). destruct (vfold l dims0) as [d|e'] eqn:E; try discriminate.
    clear H. revert E. generalize (@dims0 A). induction l as [|x l IH]; intros d E; [discriminate|].
    cbn [vfold] in E. destruct x; cbn [vpack_dims] in E; try (apply IH in E as (c' & [?|?]); exists c'; cbn; auto; fail).
    + exists c. left. now left.
    + exists c. right. now left.
  - intros (c & Hc). destruct (vfold l dims0) as [d|e] eqn:E.
    + apply vfold_nochar with (c := c) in E. tauto.
    + eauto.
Qed.

(** Natural height plus depth is the sum of the extents; a depth limit moves the
    excess depth into the height. *)
Theorem C25_vpack_total_exact : forall h lim b sh gs (l : list tnode) t,
  (exists q, lim = Fin q) \/ lim = PInf ->
  vpack (A:=exact) h true lim (TL KVList b sh gs l) = LOk t ->
  xadd (t_height t) (t_depth t) = xadd h (fsum (map extent l)).
Proof.
  intros h lim b sh gs l t Hlim H. cbn [vpack] in H.
  destruct (vfold l dims0) as [d|] eqn:E; try discriminate. inversion H; subst. clear H.
  cbn [t_depth t_height b_depth b_height].
  apply vfold_height in E. cbn [d_h d_d dims0] in E.
  replace (xadd (xadd f0 f0) (fsum (map extent l))) with (fsum (A:=exact) (map extent l)) in E
    by (rewrite f0_exact, !xadd_0_l; reflexivity).
  rewrite <- E. cbn [fadd fsub exact fltb].
  destruct (xltb lim (d_d d)) eqn:Hl.
  - destruct Hlim as [(q & ->)| ->]; [|destruct (d_d d); discriminate].
    rewrite <- !xadd_assoc, xadd_sub_fin. reflexivity.
  - symmetry. apply xadd_assoc.
Qed.

Definition c25_list : list (@Box.tnode float64) :=
  [new_rule infinity 1 1; new_kern 2; vbox 3 4; TL KHList (new_box 7 1 5) 0 gset0 []]%float.
Example C25_case :
  match vpack (A:=float64) 0%float true 1%float (list_of KVList c25_list) with
  | LOk t => (t_width t = 7 /\ t_height t = 16 /\ t_depth t = 1)%float
  | _ => False
  end.
Proof. vm_compute. repeat split. Qed.

(** ** C26: glue setting *)
Theorem C26_hpack_glue : forall (A : arith) w ad b sh gs (l : list (@Box.tnode A)),
  let t := hpack w ad (TL KHList b sh gs l) in
  glue_setting (tot_stretch l) (tot_shrink l) (fsub A (t_width t) (fsum (map t_width l))) (t_glue t).
Proof.
  intros. subst t. cbn [hpack t_glue t_width b_width]. fold (hfold l dims0).
  assert (E : d_w (hfold l dims0) = fsum (map t_width l)) by exact (hfold_w l dims0).
  rewrite <- E. apply pack_glue_spec. now apply hfold_tot.
Qed.

(** The natural height of a vertical list: what VPack adds to any requested
    height when it is additional. *)
Definition natural_height {A : arith} (lim : Arith.F A) (l : list (@Box.tnode A)) (x : Arith.F A) : Prop :=
  forall h b sh gs, exists t, vpack h true lim (TL KVList b sh gs l) = LOk t /\ t_height t = fadd A h x.

Theorem C26_vpack_glue : forall (A : arith) h ad lim b sh gs (l : list (@Box.tnode A)) t,
  vpack h ad lim (TL KVList b sh gs l) = LOk t ->
  exists x, natural_height lim l x /\
  glue_setting (tot_stretch l) (tot_shrink l) (fsub A (t_height t) x) (t_glue t).
Proof.
  intros A h ad lim b sh gs l t H. cbn [vpack] in H.
  destruct (vfold l dims0) as [d|] eqn:E; try discriminate. inversion H; subst. clear H.
  eexists. split.
  - unfold natural_height. cbn [vpack]. rewrite E. intros. eexists. split; reflexivity.
  - cbn [t_glue t_height b_height]. apply pack_glue_spec. now apply (vfold_tot l dims0 d).
Qed.

(** In exact arithmetic the natural width plus glue setting times total elasticity
    is the requested width. *)
Lemma setting_exact st sh x g : (forall o, (o <= 3)%nat -> fin (st o) /\ fin (sh o)) -> fin x ->
  glue_setting (A:=exact) st sh x g -> gs_sign g <> 0 ->
  xmul (gs_set g) (if gs_sign g =? 1 then st (gs_order g) else sh (gs_order g)) = x.
Proof.
  intros Hf (q & ->) H Hs.
  assert (D : forall t, fin t -> ~ zero (A:=exact) t -> xmul (xdiv (Fin q) t) t = Fin q).
  { intros t (r & ->) Hn. rewrite zero_iff in Hn. cbn.
    destruct (qeqb r 0) eqn:Er; [apply qeqb_iff in Er; subst; now destruct Hn|].
    cbn. f_equal. field. intros ->. now rewrite qeqb_refl in Er. }
  inversion H; subst; try congruence.
  - rewrite H2, H4. cbn [Z.eqb Pos.eqb]. destruct H3 as (Ho & Hn & _). apply D; auto. now apply Hf.
  - rewrite H2, H4. cbn [Z.eqb Pos.eqb]. destruct H3 as (Ho & Hn & _). apply D; auto. now apply Hf.
Qed.

Theorem C26_glue_fills_exact : forall w b sh gs (l : list tnode),
  fin w -> fin (fsum (map t_width l)) ->
  (forall o, (o <= 3)%nat -> fin (tot_stretch l o) /\ fin (tot_shrink l o)) ->
  let t := hpack (A:=exact) w false (TL KHList b sh gs l) in
  gs_sign (t_glue t) <> 0 ->
  let tot := if gs_sign (t_glue t) =? 1 then tot_stretch l else tot_shrink l in
  xadd (fsum (map t_width l)) (xmul (gs_set (t_glue t)) (tot (gs_order (t_glue t)))) = w.
Proof.
  intros w b sh gs l (qw & ->) (qn & Hn) Hf t Hs tot.
  pose proof (C26_hpack_glue exact (Fin qw) false b sh gs l) as G. fold t in G. cbv zeta in G.
  change (t_width t) with (Fin qw) in G. rewrite Hn in *.
  apply setting_exact in G; auto; [|eexists; reflexivity].
  subst tot. destruct (gs_sign (t_glue t) =? 1); rewrite G; cbn; f_equal; ring.
Qed.

(** Stretching wins at the highest order: with fil and fill glue in a list, only
    the fill glue stretches. *)
Example C26_case :
  let g := t_glue (hpack (A:=float64) 10%float false (list_of KHList
       [TGlue (mk_glue 0%Z 0 1 1%nat 0 0%nat); hbox 4; TGlue (mk_glue 0%Z 0 1 2%nat 0 0%nat); TGlue (mk_glue 0%Z 0 1 2%nat 0 0%nat)]%float)) in
  gs_set g = 3%float /\ gs_sign g = 1 /\ gs_order g = 2%nat.
Proof. vm_compute. repeat split. Qed.

(** ** C27: kerning *)
Theorem C27_kerning : forall (A : arith) S (be : @backend A S) (l : list (@Box.tnode A)) s,
  (forall ks s', kernings be l s ks s' ->
     exists t, hlist_of be l true s = LOk (t, s') /\ t_nodes t = interleave l ks) /\
  (forall t s', hlist_of be l true s = LOk (t, s') ->
     exists ks, kernings be l s ks s' /\ t_nodes t = interleave l ks) /\
  (forall t s', hlist_of be l false s = LOk (t, s') -> t_nodes t = l /\ s' = s).
Proof.
  intros. unfold hlist_of. split; [|split].
  - intros ks s' H. unfold mbind. rewrite (kern_list_ex be _ _ _ _ H). cbn [mret]. unfold mret. eexists. split; reflexivity.
  - intros t s' H. apply mbind_ok in H as (l' & s1 & Hk & H). inversion H; subst.
    apply kern_list_spec in Hk as (ks & Hks & ->). exists ks. auto.
  - intros t s' H. unfold mbind in H. cbn in H. now inversion H.
Qed.

(** Only characters have a kerning: the advance minus the width, plus what the
    backend says for the pair if a character follows. *)
Theorem C27_kerning_value : forall (A : arith) S (be : @backend A S) (x : @Box.tnode A) next s,
  kerning be x next s =
  match x with
  | TChar c | TAccent c =>
    match next with
    | Some (TChar n) | Some (TAccent n) =>
      mbind (be_kern be (c_font c) (c_sym c) (c_font n) (c_sym n) (c_dpi c))
            (fun k s => LOk (fadd A (fsub A (m_adv (c_metrics c)) (c_width c)) k, s)) s
    | _ => LOk (fadd A (fsub A (m_adv (c_metrics c)) (c_width c)) f0, s)
    end
  | _ => LOk (f0, s)
  end.
Proof. intros. destruct x; try reflexivity; destruct next as [[]|]; reflexivity. Qed.

(** The elements, with the inserted kerns removed, are the original ones. *)
Theorem C27_content_kept : forall (A : arith) (l : list (@Box.tnode A)) ks,
  List.length ks = List.length l ->
  exists marks : list bool, List.length marks = List.length (interleave l ks) /\
    map snd (filter fst (combine marks (interleave l ks))) = l /\
    (forall m x, In (m, x) (combine marks (interleave l ks)) -> m = false -> exists k, In k ks /\ feqb A k f0 = false /\ x = TKern 0 k).
Proof.
  intros A l. induction l as [|x l IH]; intros [|k ks] H; try discriminate.
  - exists []. cbn. repeat split; try tauto.
  - destruct (IH ks) as (ms & H1 & H2 & H3); [cbn in H; lia|].
    cbn [interleave]. destruct (feqb A k f0) eqn:Ek.
    + exists (true :: ms). cbn. rewrite H1, H2. repeat split; auto.
      intros m y [E|Hin] Hm; [inversion E; subst; discriminate|].
      destruct (H3 m y Hin Hm) as (k' & ? & ?). exists k'. auto.
    + exists (true :: false :: ms). cbn. rewrite H1, H2. repeat split; auto.
      intros m y [E|[E|Hin]] Hm; [inversion E; subst; discriminate|inversion E; subst; exists k; auto|].
      destruct (H3 m y Hin Hm) as (k' & ? & ?). exists k'. auto.
Qed.

Definition c27_be : @backend float64 unit :=
  mk_backend unit (fun _ a _ b _ => mret (if (String.eqb a "A" && String.eqb b "V")%bool then -0.5 else 0)%float)
    (fun c ft _ _ => mret (mk_metrics (A:=float64) 6 7 6 0 6 0 7 7 false)%float) (fun _ _ => mret 5%float) (fun _ _ => mret 1%float).
Definition c27_char (s : string) : @Box.tnode float64 :=
  match new_char c27_be s (mk_state (mk_font "default" "rm" 10%float) 72%float) false tt with
  | LOk (c, _) => TChar c | _ => new_kern 0%float end.
Example C27_case : exists t,
  hlist_of c27_be [c27_char "A"; c27_char "V"; c27_char "A"] true tt = LOk (t, tt) /\
  t_nodes t = [c27_char "A"; new_kern (-0.5)%float; c27_char "V"; c27_char "A"].
Proof. eexists. split; reflexivity. Qed.

(** ** C28: scaling *)
Theorem C28_shrink_grow : forall (A : arith) S (be : @backend A S) (t : @Box.tnode A), accent_free t ->
  (Forall (fun n => n <= 6) (sizes t) ->
   forall s, shrink be t s = LOk (scaled shrink_factor (-1) t, s)) /\
  (forall s, grow be t s = LOk (scaled grow_factor 1 t, s)).
Proof. intros. split; intros; [now apply shrink_scaled|now apply grow_scaled]. Qed.

(** An accent is measured again at the new font size instead. *)
Theorem C28_accent : forall (A : arith) S (be : @backend A S) (c : @tchar A) s, c_size c <= 6 ->
  let ft := mk_font (f_name (c_font c)) (f_type (c_font c)) (fmul A (f_size (c_font c)) shrink_factor) in
  shrink be (TAccent c) s =
  mbind (be_metrics be (c_sym c) ft (c_dpi c) (c_math c)) (fun m s =>
    LOk (TAccent (mk_char (c_sym c) (c_size c - 1) (fsub A (m_xmax m) (m_xmin m)) (fsub A (m_ymax m) (m_ymin m)) f0 m ft
      (c_dpi c) (c_math c)), s)) s.
Proof.
  intros A S be c s Hs ft. cbn [shrink]. unfold char_shrink.
  rewrite (proj2 (Z.ltb_lt _ _)) by (unfold num_size_levels; lia).
  unfold acc_update, mbind. cbn. subst ft.
  destruct (be_metrics be _ _ _ _ s) as [[m s']|]; reflexivity.
Qed.

Lemma scaled_inverse f g n (t : tnode) :
  (forall x, xmul (xmul x f) g = x) -> scaled (A:=exact) g (- n) (scaled f n t) = t.
Proof.
  intros H. induction t as [b|c|c|b|gl|sz w|k b sh gs l IH] using tnode_ind'; cbn [scaled].
  - destruct b; cbn. rewrite !H. repeat f_equal; lia.
  - destruct c as [a b' c d e ft [nm ty sz] x y]; cbn. rewrite !H. repeat f_equal; lia.
  - destruct c as [a b' c d e ft [nm ty sz] x y]; cbn. rewrite !H. repeat f_equal; lia.
  - destruct b; cbn. rewrite !H. repeat f_equal; lia.
  - destruct gl; cbn. rewrite !H. repeat f_equal; lia.
  - cbn. rewrite H. f_equal; lia.
  - destruct b, gs; cbn. rewrite !H. rewrite map_map.
    assert (E : map (fun x => scaled (A:=exact) g (- n) (scaled f n x)) l = l).
    { clear -IH. induction IH as [|y l Hy _ IHl]; cbn; [reflexivity|]. now rewrite Hy, IHl. }
    rewrite E. repeat f_equal; lia.
Qed.

Lemma shrink_grow_q : pos (Q2Qc (7 # 10)) /\ pos (Q2Qc (10 # 7)) /\ (Q2Qc (7 # 10) * Q2Qc (10 # 7) = 1)%Qc.
Proof. split; [reflexivity|split; [reflexivity|]]. apply Qc_is_canon. reflexivity. Qed.

(** In exact arithmetic Grow undoes Shrink and Shrink undoes Grow. *)
Theorem C28_inverse_exact : forall S (be : @backend exact S) (t : tnode) s,
  accent_free t -> Forall (fun n => n <= 5) (sizes t) ->
  mbind (shrink be t) (grow be) s = LOk (t, s) /\ mbind (grow be t) (shrink be) s = LOk (t, s).
Proof.
  intros S be t s Ha Hs. destruct shrink_grow_q as (P1 & P2 & P3). unfold mbind. split.
  - rewrite shrink_scaled; auto.
    2:{ eapply Forall_impl; [|exact Hs]. cbn. lia. }
    rewrite grow_scaled by now apply accent_free_scaled.
    rewrite shrink_exact, grow_exact. rewrite (scaled_inverse _ _ (-1)); [reflexivity|].
    intros x. apply xmul_inv; auto.
  - rewrite grow_scaled by assumption.
    rewrite shrink_scaled.
    2:{ now apply accent_free_scaled. }
    2:{ rewrite sizes_scaled. rewrite Forall_forall in *. intros z Hz. apply in_map_iff in Hz as (z' & <- & Hz').
        specialize (Hs z' Hz'). lia. }
    rewrite shrink_exact, grow_exact. rewrite (scaled_inverse _ _ 1); [reflexivity|].
    intros x. apply xmul_inv; auto.
Qed.

(** In float64 they are not inverse. *)
Theorem C28_not_inverse_float64 : forall S (be : @backend float64 S) s,
  exists t : @Box.tnode float64, accent_free t /\ Forall (fun n => n <= 5) (sizes t) /\
  forall t', mbind (shrink be t) (grow be) s = LOk (t', s) -> t' <> t.
Proof.
  intros. exists (new_kern 3%float). split; [exact I|]. split; [repeat constructor; lia|].
  intros t' H E. subst. revert H. cbn. unfold mret. intros H. inversion H as [[H1]].
  apply (f_equal (fun z => PrimFloat.eqb z 3)) in H1. vm_compute in H1. discriminate.
Qed.

(** ** C29: shrinking has no floor *)
Theorem C29_every_shrink_scales : forall (A : arith) S (be : @backend A S) n (t : @Box.tnode A) s,
  accent_free t -> Forall (fun n => n <= 6) (sizes t) ->
  shrinks be n t s = LOk (scaleds shrink_factor (-1) n t, s).
Proof. intros. now apply shrinks_scaled. Qed.

Lemma scaleds_last (A : arith) f dn n (t : @Box.tnode A) : scaleds f dn (S n) t = scaled f dn (scaleds f dn n t).
Proof. revert t. induction n as [|n IH]; intros t; [reflexivity|]. cbn [scaleds] in *. apply IH. Qed.

Lemma scaled_width f n (t : tnode) : t_width (scaled (A:=exact) f n t) = xmul (t_width t) f.
Proof. destruct t; reflexivity. Qed.
Lemma scaleds_width f dn n (t : tnode) w : t_width t = Fin w ->
  t_width (scaleds (A:=exact) (Fin f) dn n t) = Fin (w * f ^ n)%Qc.
Proof.
  intros H. induction n as [|n IH].
  - cbn. rewrite H. f_equal. ring.
  - rewrite scaleds_last, scaled_width, IH. cbn. f_equal. ring.
Qed.

(** The width after n shrinks is w * 0.7^n: with w > 0 each shrink is strictly
    smaller than the one before, and the widths get below any bound. *)
Theorem C29_no_floor_exact : forall S (be : @backend exact S) (t : tnode) (w : Qc) s,
  accent_free t -> Forall (fun n => n <= 6) (sizes t) -> t_width t = Fin w -> (0 < w)%Qc ->
  forall n, exists t1 t2 w1 w2,
    shrinks be n t s = LOk (t1, s) /\ t_width t1 = Fin w1 /\
    shrinks be (Datatypes.S n) t s = LOk (t2, s) /\ t_width t2 = Fin w2 /\
    (0 < w2)%Qc /\ (w2 < w1)%Qc.
Proof.
  intros S be t w s Ha Hs Hw Hp n.
  exists (scaleds shrink_factor (-1) n t), (scaleds shrink_factor (-1) (Datatypes.S n) t).
  rewrite !shrinks_scaled by assumption. rewrite shrink_exact.
  rewrite !(scaleds_width _ _ _ _ _ Hw).
  set (f := Q2Qc (7 # 10)). exists (w * f ^ n)%Qc, (w * f ^ Datatypes.S n)%Qc.
  assert (Pn : forall m, (0 < w * f ^ m)%Qc).
  { induction m as [|m IH].
    - cbn. replace (w * 1)%Qc with w by ring. assumption.
    - replace (w * f ^ Datatypes.S m)%Qc with ((w * f ^ m) * f)%Qc by (cbn; ring).
      replace (Q2Qc 0) with ((Q2Qc 0) * f)%Qc by ring. apply Qcmult_lt_compat_r; [reflexivity|assumption]. }
  repeat split; auto.
  replace (w * f ^ Datatypes.S n)%Qc with (f * (w * f ^ n))%Qc by (cbn; ring).
  replace (w * f ^ n)%Qc with (1 * (w * f ^ n))%Qc at 2 by ring.
  apply Qcmult_lt_compat_r; [apply Pn|reflexivity].
Qed.

(** Fresh nodes have size level 0, so they satisfy the hypothesis. *)
Example C29_case : accent_free (c27_char "A") /\ Forall (fun n => n <= 6) (sizes (c27_char "A")) /\
  shrinks c27_be 20 (c27_char "A") tt = LOk (scaleds shrink_factor (-1) 20 (c27_char "A"), tt).
Proof.
  split; [exact I|]. split; [repeat constructor; cbn; lia|].
  apply C29_every_shrink_scales; [exact I|repeat constructor; cbn; lia].
Qed.

(** ** C30: packing commutes with scaling *)
Section Commute.
Variable f : Qc.
Hypothesis Hf : pos f.
Notation sc := (scaled (A:=exact) (Fin f) (-1)).

Lemma fold_add_scale l a : fold_left xadd (map (fun x => xmul x (Fin f)) l) (xmul a (Fin f)) = xmul (fold_left xadd l a) (Fin f).
Proof. revert a. induction l as [|x l IH]; intros a; cbn; [reflexivity|]. rewrite <- xmul_add_distr by assumption. apply IH. Qed.
Lemma fold_max_scale l a : fold_left xmax (map (fun x => xmul x (Fin f)) l) (xmul a (Fin f)) = xmul (fold_left xmax l a) (Fin f).
Proof. revert a. induction l as [|x l IH]; intros a; cbn; [reflexivity|]. rewrite <- xmax_mul by assumption. apply IH. Qed.
Lemma f0_scale : xmul f0 (Fin f) = f0.
Proof. rewrite f0_exact. apply xmul_0. Qed.

Lemma running_scale (b : box) : running (mk_box (A:=exact) (b_size b + -1) (xmul (b_width b) (Fin f)) (xmul (b_height b) (Fin f)) (xmul (b_depth b) (Fin f))) = running b.
Proof. unfold running. cbn [finf exact b_height b_depth]. now rewrite !xinf_mul_pos. Qed.

Lemma heights_scale l : heights (map sc l) = map (fun x => xmul x (Fin f)) (heights l).
Proof.
  unfold heights. cbn [map]. rewrite f0_scale. f_equal.
  induction l as [|x l IH]; [reflexivity|]. cbn [flat_map map]. rewrite map_app, IH. f_equal.
  destruct x; cbn [scaled]; try reflexivity; cbn [fmul exact]; rewrite running_scale; destruct (running b); try reflexivity.
  cbn [map b_height]. cbn [fsub exact]. now rewrite xmul_sub_distr.
Qed.
Lemma depths_scale l : depths (map sc l) = map (fun x => xmul x (Fin f)) (depths l).
Proof.
  unfold depths. cbn [map]. rewrite f0_scale. f_equal.
  induction l as [|x l IH]; [reflexivity|]. cbn [flat_map map]. rewrite map_app, IH. f_equal.
  destruct x; cbn [scaled]; try reflexivity; cbn [fmul exact]; rewrite running_scale; destruct (running b); try reflexivity.
  cbn [map b_depth]. cbn [fadd exact]. now rewrite xmul_add_distr.
Qed.
Lemma widths_scale l : widths (map sc l) = map (fun x => xmul x (Fin f)) (widths l).
Proof.
  unfold widths. cbn [map]. rewrite f0_scale. f_equal.
  induction l as [|x l IH]; [reflexivity|]. cbn [flat_map map]. rewrite map_app, IH. f_equal.
  destruct x; cbn [scaled]; try reflexivity; cbn [fmul exact finf b_width]; rewrite xinf_mul_pos by assumption; destruct (xinf (b_width b)); reflexivity.
Qed.

Lemma hpack_commutes b sh gs (l : list tnode) :
  let t1 := sc (hpack f0 true (TL KHList b sh gs l)) in
  let t2 := hpack f0 true (TL KHList b sh gs (map sc l)) in
  t_width t1 = t_width t2 /\ t_height t1 = t_height t2 /\ t_depth t1 = t_depth t2 /\ t_nodes t1 = t_nodes t2.
Proof.
  cbn [hpack scaled t_width t_height t_depth t_nodes b_width b_height b_depth].
  change (fold_left (fun d x => hpack_dims x d) (map sc l) dims0) with (hfold (map sc l) (@dims0 exact)).
  change (fold_left (fun d x => hpack_dims x d) l dims0) with (hfold l (@dims0 exact)).
  rewrite !hfold_w, !hfold_h, !hfold_d. cbn [d_w d_h d_d dims0 fadd fmul fmax exact].
  repeat split.
  - rewrite f0_exact, !xadd_0_l. rewrite map_map.
    rewrite (map_ext (fun x => t_width (sc x)) (fun x => xmul (t_width x) (Fin f))) by (intros; apply scaled_width).
    rewrite <- (map_map t_width (fun x => xmul x (Fin f))).
    change (fun a x : Arith.F exact => xadd a x) with xadd.
    rewrite <- (xmul_0 f) at 2. now rewrite fold_add_scale.
  - rewrite heights_scale. unfold heights. cbn [map tl]. change (fmax exact) with xmax.
    rewrite <- f0_scale at 2. now rewrite fold_max_scale.
  - rewrite depths_scale. unfold depths. cbn [map tl]. change (fmax exact) with xmax.
    rewrite <- f0_scale at 2. now rewrite fold_max_scale.
Qed.

Lemma vfold_scale (l : list tnode) : forall d d', vfold l d = LOk d' ->
  forall e, d_h e = xmul (d_h d) (Fin f) -> d_d e = xmul (d_d d) (Fin f) ->
  exists e', vfold (map sc l) e = LOk e' /\ d_h e' = xmul (d_h d') (Fin f) /\ d_d e' = xmul (d_d d') (Fin f).
Proof.
  induction l as [|x l IH]; intros d d' H e E1 E2.
  - inversion H; subst. cbn. eauto.
  - cbn [vfold map] in *.
    destruct (vpack_dims x d) as [d1|] eqn:Ex; try discriminate.
    assert (X : exists e1, vpack_dims (sc x) e = LOk e1 /\ d_h e1 = xmul (d_h d1) (Fin f) /\ d_d e1 = xmul (d_d d1) (Fin f)).
    { destruct x as [b|c|c|b|g|sz w|k b sh gs' xs]; cbn [vpack_dims] in Ex; try discriminate; inversion Ex; subst; clear Ex;
        cbn [scaled vpack_dims]; eexists; (split; [reflexivity|]); cbn [d_h d_d b_height b_depth g_width fadd fmul exact];
        rewrite ?E1, ?E2, ?xmul_add_distr, ?f0_exact, ?xmul_0 by assumption; auto. }
    destruct X as (e1 & -> & X1 & X2). eapply IH; eauto.
Qed.

Lemma vpack_commutes b sh gs (l : list tnode) t :
  vpack f0 true PInf (TL KVList b sh gs l) = LOk t ->
  exists t2, vpack f0 true PInf (TL KVList b sh gs (map sc l)) = LOk t2 /\
  t_width (sc t) = t_width t2 /\ t_height (sc t) = t_height t2 /\ t_depth (sc t) = t_depth t2 /\ t_nodes (sc t) = t_nodes t2.
Proof.
  cbn [vpack]. intros H. destruct (vfold l dims0) as [d|] eqn:E; try discriminate. inversion H; subst. clear H.
  destruct (vfold_scale l dims0 d E dims0) as (e & He & H1 & H2); try (symmetry; exact f0_scale).
  rewrite He. eexists. split; [reflexivity|].
  cbn [scaled t_width t_height t_depth t_nodes b_width b_height b_depth].
  assert (N : forall x, fltb exact PInf x = false) by (intros []; reflexivity). rewrite !N.
  repeat split.
  - rewrite (vfold_w _ _ _ E), (vfold_w _ _ _ He), widths_scale. unfold widths. cbn [map tl d_w dims0 fmul exact].
    change (fmax exact) with xmax. rewrite <- f0_scale at 2. now rewrite fold_max_scale.
  - rewrite H1. change (xmul (xadd f0 (d_h d)) (Fin f) = xadd f0 (xmul (d_h d) (Fin f))).
    now rewrite f0_exact, !xadd_0_l.
  - now rewrite H2.
Qed.
End Commute.

(** Shrinking a naturally packed list gives the dimensions and children of packing
    the shrunk children. *)
Theorem C30_shrink_hpack_commute : forall S (be : @backend exact S) (l : list tnode) s t,
  Forall accent_free l -> Forall (fun x => Forall (fun n => n <= 6) (sizes x)) l ->
  hlist_of be l false s = LOk (t, s) ->
  exists t1 l' t2,
    shrink be t s = LOk (t1, s) /\ mmap (shrink be) l s = LOk (l', s) /\ hlist_of be l' false s = LOk (t2, s) /\
    t_width t1 = t_width t2 /\ t_height t1 = t_height t2 /\ t_depth t1 = t_depth t2 /\ t_nodes t1 = t_nodes t2.
Proof.
  intros S be l s t Ha Hs H. unfold hlist_of, mbind in H. cbn [mret] in H. unfold mret in H. inversion H; subst. clear H.
  exists (scaled shrink_factor (-1) (hpack f0 true (list_of KHList l))), (map (scaled shrink_factor (-1)) l), (hpack f0 true (list_of KHList (map (scaled shrink_factor (-1)) l))).
  split.
  { apply shrink_scaled.
    - cbn [list_of hpack accent_free]. now apply accent_free_all.
    - cbn [list_of hpack sizes b_size]. constructor; [cbn; lia|]. now apply Forall_flat_map. }
  split.
  { apply mmap_map. rewrite Forall_forall in *. intros y Hy s'. apply shrink_scaled; auto. }
  split; [reflexivity|].
  rewrite shrink_exact. unfold list_of. apply hpack_commutes. apply shrink_grow_q.
Qed.

Theorem C30_shrink_vpack_commute : forall S (be : @backend exact S) (l : list tnode) (s : S) t,
  Forall accent_free l -> Forall (fun x => Forall (fun n => n <= 6) (sizes x)) l ->
  vlist_of l s = LOk (t, s) ->
  exists t1 l' t2,
    shrink be t s = LOk (t1, s) /\ mmap (shrink be) l s = LOk (l', s) /\ vlist_of l' s = LOk (t2, s) /\
    t_width t1 = t_width t2 /\ t_height t1 = t_height t2 /\ t_depth t1 = t_depth t2 /\ t_nodes t1 = t_nodes t2.
Proof.
  intros S be l s t Ha Hs H. unfold vlist_of in H. cbn [fpinf exact] in H.
  destruct (vpack f0 true PInf (list_of KVList l)) as [t0|] eqn:E; try discriminate.
  unfold mret in H. inversion H; subst. clear H.
  destruct (vpack_commutes (Q2Qc (7 # 10)) (proj1 shrink_grow_q) _ _ _ _ _ E) as (t2 & E2 & R).
  exists (scaled shrink_factor (-1) t), (map (scaled shrink_factor (-1)) l), t2.
  split.
  { assert (X : exists b' gs', t = TL KVList (mk_box (A:=exact) 0 (b_width b') (b_height b') (b_depth b')) f0 gs' l).
    { cbn [list_of vpack] in E. destruct (vfold l dims0); try discriminate. inversion E; subst. 
      eexists (mk_box 0 _ _ _), _. cbn. reflexivity. }
    destruct X as (b' & gs' & ->).
    apply shrink_scaled.
    - cbn [accent_free]. now apply accent_free_all.
    - cbn [sizes b_size]. constructor; [lia|]. now apply Forall_flat_map. }
  split.
  { apply mmap_map. rewrite Forall_forall in *. intros y Hy s'. apply shrink_scaled; auto. }
  split; [|rewrite shrink_exact; exact R].
  unfold vlist_of. cbn [fpinf exact]. rewrite shrink_exact. unfold list_of in *. now rewrite E2.
Qed.

(** The premises hold for a list mixing all kinds of nodes, at size level 0. *)
Example C30_case : let l := [vbox (A:=exact) (xofZ 2) (xofZ 3); new_rule (xofZ 1) PInf PInf; glue_ss; new_kern (xofZ 4)] in
  Forall accent_free l /\ Forall (fun x => Forall (fun n => n <= 6) (sizes x)) l /\
  exists t, hlist_of (S:=unit) (mk_backend unit (fun _ _ _ _ _ => mret f0) (fun _ _ _ _ => mpanic "none") (fun _ _ => mret f0) (fun _ _ => mret f0)) l false tt = LOk (t, tt) /\
  t_width t = xofZ 5.
Proof.
  cbv zeta. split; [repeat constructor|]. split; [repeat constructor; cbn; lia|].
  eexists. split; [reflexivity|]. vm_compute. reflexivity.
Qed.
