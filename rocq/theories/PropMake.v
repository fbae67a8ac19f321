(** C73-C75: glue by name, the extents of characters, lines and x-heights. *)
From Coq Require Import ZArith String Ascii List Bool Lia QArith Qcanon Lqa Field Qfield.
From Coq Require Import Floats.
From Verif Require Import Utf8 Arith Exact OrderLaws Box Ship ShipSpec ShipFacts ShipFacts2 PackSpec PackFacts ExactFacts PropPack PropShip
  MtexFacts GeomFacts Ttf TtfSpec TtfFacts TtfExact.
Import ListNotations.
Local Open Scope string_scope.
Local Open Scope list_scope.
Local Open Scope Z_scope.

(** ** C73 *)
(** The kinds of glue: how strong a glue is (0: it does not give) and how much it
    counts among equals, when the list is stretched and when it is compressed. *)
Definition kinds : list string := ["fil"; "fill"; "filll"; "neg_fil"; "neg_fill"; "neg_filll"; "empty"; "ss"].
Definition pull (compress : bool) (k : string) : Z * Z :=
  if compress then
    if String.eqb k "neg_fil" then (1, 1) else if String.eqb k "neg_fill" then (2, 1)
    else if String.eqb k "neg_filll" then (3, 1) else if String.eqb k "ss" then (1, -1) else (0, 0)
  else
    if String.eqb k "fil" then (1, 1) else if String.eqb k "fill" then (2, 1)
    else if String.eqb k "filll" then (3, 1) else if String.eqb k "ss" then (1, 1) else (0, 0).
(** Two glues share the space [x] (negative: compressed): the stronger one takes
    all; equally strong ones share it in proportion, unless they cancel. *)
Definition share (k1 k2 : string) (x : Qc) : Qc :=
  let '(s1, a1) := pull (qltb x 0) k1 in
  let '(s2, a2) := pull (qltb x 0) k2 in
  if s1 >? s2 then x else if s1 <? s2 then 0%Qc
  else if a1 + a2 =? 0 then 0%Qc else (x * (zq a1 / zq (a1 + a2)))%Qc.

(** NewGlue accepts exactly these names; no glue has a natural width. *)
Theorem C73_kinds : forall (A : arith) typ,
  (In typ kinds -> exists g, @new_glue A typ = Some g /\ g_width g = f0 /\ g_size g = 0) /\
  (~ In typ kinds -> @new_glue A typ = None).
Proof.
  intros A typ. split.
  - unfold kinds. cbn [In]. intros H. repeat (destruct H as [<-|H]; [eexists; split; [reflexivity|split; reflexivity]|]). destruct H.
  - intros N. unfold new_glue. unfold kinds in N. cbn [In] in N.
    repeat match goal with |- (if String.eqb ?a ?b then _ else _) = _ => destruct (String.eqb a b) eqn:?E; [apply String.eqb_eq in E; exfalso; apply N; rewrite E; tauto|clear E] end.
    reflexivity.
Qed.

Lemma kind_of (A : arith) k g : @new_glue A k = Some g -> In k kinds.
Proof.
  intros E. destruct (in_dec string_dec k kinds) as [I|N]; [exact I|]. rewrite (proj2 (C73_kinds A k) N) in E. discriminate E.
Qed.
Definition kind_glue (k : string) : @glue exact := match new_glue k with Some g => g | None => mk_glue 0 f0 f0 0 f0 0 end.
Definition totals (compress : bool) (k1 k2 : string) : list xq :=
  let g1 := kind_glue k1 in let g2 := kind_glue k2 in
  if compress then add_at (g_shrink_order g2) (g_shrink g2) (add_at (g_shrink_order g1) (g_shrink g1) (@zeros exact))
  else add_at (g_stretch_order g2) (g_stretch g2) (add_at (g_stretch_order g1) (g_stretch g1) (@zeros exact)).
(** For every pair of kinds: either the totals vanish and so does the share, or the
    first glue takes part in the setting iff it is at the chosen order. *)
Definition qv (x : xq) : Qc := match x with Fin q => q | _ => 0%Qc end.
Definition chosen_by (compress : bool) (k1 k2 : string) : bool :=
  let t := totals compress k1 k2 in
  let o := @determine_order exact t in
  let '(s1, a1) := pull compress k1 in
  let '(s2, a2) := pull compress k2 in
  let g1 := kind_glue k1 in
  let o1 := if compress then g_shrink_order g1 else g_stretch_order g1 in
  let e1 := if compress then g_shrink g1 else g_stretch g1 in
  let coeff := if s1 >? s2 then 1%Qc else if s1 <? s2 then 0%Qc else if a1 + a2 =? 0 then 0%Qc else (zq a1 / zq (a1 + a2))%Qc in
  match nth o t (Fin 0), e1 with
  | Fin tot, Fin e =>
    if qeqb tot 0 then qeqb coeff 0
    else if Nat.eqb o1 o then qeqb (e / tot)%Qc coeff else qeqb coeff 0
  | _, _ => false
  end && existsb (qeqb coeff) [0%Qc; 1%Qc; Q2Qc (1 # 2)].
Lemma all_chosen : forallb (fun b => forallb (fun k1 => forallb (chosen_by b k1) kinds) kinds) [true; false] = true.
Proof. vm_compute. reflexivity. Qed.

Lemma pick_gap k1 k2 x gs d : In k1 kinds -> In k2 kinds -> x <> 0%Qc -> (- billion <= this x <= billion)%Q ->
  d_stretch d = totals false k1 k2 -> d_shrink d = totals true k1 k2 ->
  glue_upto (A := exact) (pack_glue gs (Fin x) d) [TGlue (kind_glue k1)] = qround (share k1 k2 x).
Proof.
  intros I1 I2 NX BX DS DH.
  set (neg := qltb x 0).
  assert (CH : chosen_by neg k1 k2 = true).
  { pose proof all_chosen as AC. rewrite forallb_forall in AC.
    assert (IN : In neg [true; false]) by (destruct neg; cbn; auto). apply AC in IN. rewrite forallb_forall in IN.
    specialize (IN k1 I1). rewrite forallb_forall in IN. exact (IN k2 I2). }
  assert (PG : pack_glue gs (Fin x) d = set_glue gs (Fin x) (if neg then -1 else 1) (totals neg k1 k2)).
  { unfold pack_glue. rewrite f0_exact. replace (feqb exact (Fin x) (Fin 0)) with false
      by (symmetry; cbn; destruct (qeqb x 0) eqn:Q; [apply qeqb_iff in Q; contradiction|reflexivity]).
    change (fltb exact (Fin 0) (Fin x)) with (qltb 0 x). unfold neg. destruct (qltb 0 x) eqn:L.
    - assert (qltb x 0 = false) as ->; [|now rewrite DS].
      apply qltb_iff in L. destruct (qltb x 0) eqn:L2; [|reflexivity]. apply qltb_iff in L2.
      exfalso. apply (Qclt_not_le _ _ L). now apply Qclt_le_weak.
    - assert (qltb x 0 = true) as ->; [|now rewrite DH].
      apply qltb_false in L. apply qltb_iff. apply Qcle_lt_or_eq in L as [L|L]; [exact L|contradiction]. }
  rewrite PG. unfold set_glue. rewrite f0_exact.
  unfold chosen_by in CH. unfold share. fold neg.
  destruct (pull neg k1) as [s1 a1], (pull neg k2) as [s2 a2].
  apply andb_true_iff in CH as [CH CB].
  set (o := determine_order (totals neg k1 k2)) in *.
  set (coeff := if s1 >? s2 then 1%Qc else if s1 <? s2 then 0%Qc else if a1 + a2 =? 0 then 0%Qc else (zq a1 / zq (a1 + a2))%Qc) in *.
  assert (SH : (if s1 >? s2 then x else if s1 <? s2 then 0 else if a1 + a2 =? 0 then 0 else (x * (zq a1 / zq (a1 + a2))))%Qc = (x * coeff)%Qc).
  { unfold coeff. destruct (s1 >? s2); [ring|]. destruct (s1 <? s2); [ring|]. destruct (a1 + a2 =? 0); ring. }
  rewrite SH. clear SH. clearbody coeff. clear s1 a1 s2 a2.
  assert (CL : clamp (A := exact) (Fin (x * coeff)) = Fin (x * coeff)).
  { apply clamp_id. cbn [existsb] in CB. rewrite !orb_true_iff, !qeqb_iff in CB.
    destruct CB as [C|[C|[C|C]]]; [| | |discriminate C]; subst coeff; rewrite this_mult; change (this 0%Qc) with 0%Q; change (this 1%Qc) with 1%Q;
      change (this (Q2Qc (1 # 2))) with (1 # 2)%Q; unfold billion in *; change (inject_Z 1000000000) with 1000000000%Q in *; lra. }
  change (@nth (Arith.F exact)) with (@nth xq).
  destruct (nth o (totals neg k1 k2) (Fin 0)) as [tot| | |]; try discriminate CH.
  destruct (if neg then g_shrink (kind_glue k1) else g_stretch (kind_glue k1)) as [e| | |] eqn:EE; try discriminate CH.
  change (feqb exact (Fin tot) (Fin 0)) with (qeqb tot 0).
  assert (Z0 : qround 0 = 0) by reflexivity.
  destruct (qeqb tot 0) eqn:ET.
  - apply qeqb_iff in CH. subst coeff. rewrite Qcmult_0_r, Z0. reflexivity.
  - cbn [negb]. unfold glue_upto, elastics, elastic. cbn [flat_map gs_sign gs_order gs_set].
    assert (NT : tot <> 0%Qc) by (intros Q; apply qeqb_iff in Q; congruence).
    destruct neg; cbn [Z.eqb Pos.eqb]; cbv iota; destruct (Nat.eqb _ o) eqn:EO; cbn [app].
    all: try (apply qeqb_iff in CH; subst coeff; rewrite ?Qcmult_0_r, ?Z0; reflexivity).
    all: apply qeqb_iff in CH; cbn [fsum fold_left]; rewrite EE, f0_exact; cbn [fsum fold_left]; rewrite add_fin;
      cbn [fdiv exact xdiv]; rewrite ET; rewrite mul_fin; replace (x / tot * (0 + e))%Qc with (x * coeff)%Qc by (rewrite <- CH; field; exact NT);
      rewrite CL; reflexivity.
Qed.

(** A character between two glues, packed to its width plus [x], is drawn where the
    share of the first glue puts it, up to rounding. *)
Theorem C73_share_exact : forall k1 k2 g1 g2 c (w x : Qc) ox oy b sh gs t' st,
  new_glue (A := exact) k1 = Some g1 -> new_glue (A := exact) k2 = Some g2 ->
  c_width c = Fin w -> x <> 0%Qc -> (- billion <= this x <= billion)%Q ->
  let t := hpack (A := exact) (Fin (w + x)) false (TL KHList b sh gs [TGlue g1; TChar c; TGlue g2]) in
  ship_call (Fin ox) (Fin oy) t = LOk (t', st) ->
  exists px py, s_out st = [EGlyph (Fin px) py (c_font c) (c_sym c) (c_dpi c)] /\
    (this ox + this (share k1 k2 x) - (1 # 2) <= this px <= this ox + this (share k1 k2 x) + (1 # 2))%Q.
Proof.
  intros * E1 E2 CW NX BX t H.
  pose proof (kind_of _ _ _ E1) as I1. pose proof (kind_of _ _ _ E2) as I2.
  assert (W : forall k g, In k kinds -> new_glue (A := exact) k = Some g -> g_width g = Fin 0).
  { intros k g I E. destruct (proj1 (C73_kinds exact k) I) as (g' & E' & W & _). rewrite E in E'. now injection E' as <-. }
  assert (Q1 : g1 = kind_glue k1) by (unfold kind_glue; now rewrite E1).
  assert (Q2 : g2 = kind_glue k2) by (unfold kind_glue; now rewrite E2).
  pose proof (W k1 g1 I1 E1) as W1. pose proof (W k2 g2 I2 E2) as W2.
  unfold t in H. cbn [hpack] in H.
  match type of H with context [pack_glue ?a ?b ?c] => set (g := pack_glue a b c) in * end.
  assert (GE : glue_upto g [TGlue g1] = qround (share k1 k2 x)).
  { unfold g. cbn [fold_left hpack_dims dims0 Box.d_w d_stretch d_shrink]. rewrite W1, W2, CW, f0_exact, !add_fin, sub_fin.
    replace (w + x - (0 + 0 + w + 0))%Qc with x by ring. rewrite Q1. apply pick_gap; try assumption; cbn [d_stretch d_shrink]; subst g1 g2; reflexivity. }
  apply ship_ok_inv in H as (_ & _ & ->). cbn [s_out b_height].
  rewrite draws_unfold. cbn [each hdraw app].
  unfold hpos. cbn [ShipSpec.after]. unfold right_of, glue_size. cbn [app]. rewrite GE. change (glue_upto g []) with 0. rewrite W1. fold (@f0 exact).
  rewrite !f0_exact, !ofZ_fin, sub_fin, !add_fin.
  eexists _, _. split; [reflexivity|].
  pose proof (qround_bound (share k1 k2 x)) as B. unfold zq.
  unfold Qcminus. rewrite !this_plus, !this_opp. cbn [this Q2Qc]. rewrite !Qred_correct. change (inject_Z 0) with 0%Q. lra.
Qed.

(** HCentered and VCentered put their contents between two glues of the kind "ss". *)
Theorem C73_centred : forall (A : arith) S (be : @backend A S) (l : list (@Box.tnode A)) g s,
  new_glue "ss" = Some g ->
  hcentered be l s = hlist_of be (TGlue g :: l ++ [TGlue g]) false s /\
  vcentered (S := S) l s = vlist_of (TGlue g :: l ++ [TGlue g]) s.
Proof. intros * E. assert (TGlue g = glue_ss) as -> by (cbn in E; injection E as <-; reflexivity). split; reflexivity. Qed.

(** So a character centred in a box wider or narrower than itself sticks in, or out,
    equally on both sides, up to rounding. *)
Theorem C73_middle_exact : forall S (be : @backend exact S) s c (w x : Qc) t0 t' st,
  c_width c = Fin w -> x <> 0%Qc -> (- billion <= this x <= billion)%Q ->
  hcentered be [TChar c] s = LOk (t0, s) ->
  ship_call (Fin 0) (Fin 0) (hpack (A := exact) (Fin (w + x)) false t0) = LOk (t', st) ->
  exists px py, s_out st = [EGlyph (Fin px) py (c_font c) (c_sym c) (c_dpi c)] /\
    (this x / 2 - (1 # 2) <= this px <= this x / 2 + (1 # 2))%Q.
Proof.
  intros * CW NX BX H SH.
  destruct (new_glue (A := exact) "ss") as [g|] eqn:EG; [|cbn in EG; discriminate EG].
  rewrite (proj1 (C73_centred exact S be [TChar c] g s EG)) in H.
  unfold hlist_of in H. cbn [app] in H.
  assert (exists b sh gs, t0 = TL KHList b sh gs [TGlue g; TChar c; TGlue g]) as (b & sh & gs & ->)
    by (cbn in H; injection H as <-; eexists _, _, _; reflexivity).
  destruct (C73_share_exact "ss" "ss" g g c w x 0 0 b sh gs t' st EG EG CW NX BX SH) as (px & py & E & B).
  exists px, py. split; [exact E|].
  assert (SX : (this (share "ss" "ss" x) == this x / 2)%Q).
  { unfold share, pull. cbn [String.eqb Ascii.eqb Bool.eqb]. destruct (qltb x 0); cbv iota beta.
    - change (zq (-1) / zq (-1 + -1))%Qc with (Q2Qc (1 # 2)). cbn [Z.gtb Z.ltb Z.compare Z.eqb Z.add Pos.add Pos.compare Pos.compare_cont CompOpp]. rewrite this_mult. change (this (Q2Qc (1 # 2))) with (1 # 2)%Q. field.
    - change (zq 1 / zq (1 + 1))%Qc with (Q2Qc (1 # 2)). cbn [Z.gtb Z.ltb Z.compare Z.eqb Z.add Pos.add Pos.compare Pos.compare_cont CompOpp]. rewrite this_mult. change (this (Q2Qc (1 # 2))) with (1 # 2)%Q. field. }
  rewrite SX in B. change (this 0%Qc) with 0%Q in B. lra.
Qed.

(** ** C74 *)
(** A character is as wide as its ink (a blank: as its advance), as high as its ink
    reaches above the baseline, and its height and depth add up to the height of the
    ink. *)
Theorem C74_char_exact : forall S (be : @backend exact S) sym st math s c s',
  new_char be sym st math s = LOk (c, s') ->
  exists m, be_metrics be sym (st_font st) (st_dpi st) math s = LOk (m, s') /\
    c_sym c = sym /\ c_font c = st_font st /\ c_dpi c = st_dpi st /\ c_math c = math /\ c_metrics c = m /\ c_size c = 0 /\
    t_width (TChar c) = (if String.eqb sym " " then m_adv m else m_width m) /\
    t_height (TChar c) = m_iceberg m /\
    (fin (m_iceberg m) -> fadd exact (t_height (TChar c)) (t_depth (TChar c)) = m_height m).
Proof.
  intros * E. unfold new_char in E. apply mbind_ok in E as (m & s1 & E1 & E).
  assert (Q : mk_char sym 0 (if String.eqb sym " " then m_adv m else m_width m) (m_iceberg m) (fopp exact (fsub exact (m_iceberg m) (m_height m)))
     m (st_font st) (st_dpi st) math = c) by (unfold mret in E; inversion E; reflexivity).
  assert (Q2 : s1 = s') by (unfold mret in E; inversion E; reflexivity). subst s1. subst c.
  exists m. cbn [c_sym c_font c_dpi c_math c_metrics c_size t_width t_height t_depth c_width c_height c_depth].
  do 8 (split; [first [exact E1|reflexivity]|]). split; [reflexivity|]. intros (i & ->).
  destruct (m_height m) as [h| | |]; try reflexivity. rewrite sub_fin, opp_fin, add_fin. apply f_equal. ring.
Qed.

(** How much of a row a node takes: a character its advance, anything else its
    width. *)
Definition takes (x : @Box.tnode exact) (q : Qc) : Prop :=
  (exists w, t_width x = Fin w) /\
  match x with TChar c | TAccent c => m_adv (c_metrics c) = Fin q | _ => t_width x = Fin q end.
(** The kerning of neighbours: only characters are kerned. *)
Definition next_pair (pair : @Box.font exact -> string -> @Box.font exact -> string -> Qc) (x : @Box.tnode exact) (l : list (@Box.tnode exact)) : Qc :=
  match x, l with
  | (TChar a | TAccent a), (TChar b | TAccent b) :: _ => pair (c_font a) (c_sym a) (c_font b) (c_sym b)
  | _, _ => 0%Qc
  end.
Fixpoint pairs pair (l : list (@Box.tnode exact)) : Qc :=
  match l with [] => 0%Qc | x :: l' => (next_pair pair x l' + pairs pair l')%Qc end.
Definition qsum (l : list Qc) : Qc := fold_right Qcplus 0%Qc l.

Lemma width_sum (l : list (@Box.tnode exact)) : forall d, Box.d_w (fold_left (fun d x => hpack_dims x d) l d) = fadd exact (Box.d_w d) (fsum (map t_width l)).
Proof.
  induction l as [|x l IH]; intros d; cbn [fold_left map].
  - change (@fsum exact []) with (Fin 0). now rewrite xadd_0_r.
  - rewrite IH, fsum_cons. change (fadd exact) with xadd. rewrite xadd_assoc. apply (f_equal (fun z => xadd z _)).
    destruct x as [b|c|c|b|g|z w|k b sh gs l0]; cbn [hpack_dims t_width Box.d_w]; try reflexivity; destruct (_ || _); reflexivity.
Qed.
Lemma kern_takes S (be : @backend exact S) pair x l q s d s' : takes x q ->
  (forall f1 s1 f2 s2 dpi s k s', be_kern be f1 s1 f2 s2 dpi s = LOk (k, s') -> k = Fin (pair f1 s1 f2 s2)) ->
  kerning be x (hd_error l) s = LOk (d, s') -> fadd exact (t_width x) d = Fin (q + next_pair pair x l)%Qc.
Proof.
  intros ((w & W) & T) K E. rewrite C27_kerning_value in E.
  assert (ND : forall z : xq, LOk (z, s) = LOk (d, s') -> d = z) by (intros z X; inversion X; reflexivity).
  assert (CH : forall c, x = TChar c \/ x = TAccent c -> m_adv (c_metrics c) = Fin q -> c_width c = Fin w ->
    match hd_error l with
    | Some (TChar n) | Some (TAccent n) => mbind (be_kern be (c_font c) (c_sym c) (c_font n) (c_sym n) (c_dpi c))
         (fun k s => LOk (fadd exact (fsub exact (m_adv (c_metrics c)) (c_width c)) k, s)) s
    | _ => LOk (fadd exact (fsub exact (m_adv (c_metrics c)) (c_width c)) f0, s)
    end = LOk (d, s') -> fadd exact (t_width x) d = Fin (q + next_pair pair x l)%Qc).
  { intros c X A CW H. rewrite A, CW in H.
    assert (P : (forall n, hd_error l = Some n -> match n with TChar _ | TAccent _ => False | _ => True end) -> d = Fin (q - w)%Qc /\ next_pair pair x l = 0%Qc).
    { intros N. destruct l as [|n l'].
      - cbn [hd_error] in H. apply ND in H. subst d. rewrite f0_exact, sub_fin, add_fin. split; [apply f_equal; ring|]. destruct X as [-> | ->]; reflexivity.
      - specialize (N n eq_refl). cbn [hd_error] in H. destruct n; try destruct N; apply ND in H; subst d; rewrite f0_exact, sub_fin, add_fin;
          (split; [apply f_equal; ring|]; destruct X as [-> | ->]; reflexivity). }
    assert (P2 : forall n l', l = TChar n :: l' \/ l = TAccent n :: l' -> exists k s1, be_kern be (c_font c) (c_sym c) (c_font n) (c_sym n) (c_dpi c) s = LOk (k, s1) /\
       d = fadd exact (fsub exact (Fin q) (Fin w)) k /\ next_pair pair x l = pair (c_font c) (c_sym c) (c_font n) (c_sym n)).
    { intros n l' L. assert (H' : mbind (be_kern be (c_font c) (c_sym c) (c_font n) (c_sym n) (c_dpi c))
         (fun k s => LOk (fadd exact (fsub exact (Fin q) (Fin w)) k, s)) s = LOk (d, s')) by (destruct L as [-> | ->]; exact H).
      apply mbind_ok in H' as (k & s1 & H1 & H2). exists k, s1. split; [exact H1|]. split; [inversion H2; reflexivity|].
      destruct X as [-> | ->], L as [-> | ->]; reflexivity. }
    rewrite W.
    assert (FIN : forall n l', l = TChar n :: l' \/ l = TAccent n :: l' -> fadd exact (Fin w) d = Fin (q + next_pair pair x l)%Qc).
    { intros n l' L. destruct (P2 n l' L) as (k & s1 & H1 & -> & ->). apply K in H1. subst k.
      rewrite sub_fin, !add_fin. apply f_equal. ring. }
    assert (FIN0 : (forall n, hd_error l = Some n -> match n with TChar _ | TAccent _ => False | _ => True end) -> fadd exact (Fin w) d = Fin (q + next_pair pair x l)%Qc).
    { intros N. destruct (P N) as (-> & ->). rewrite add_fin. apply f_equal. ring. }
    destruct l as [|n l'].
    - apply FIN0. intros n N. discriminate N.
    - destruct n; try (apply FIN0; intros n N; cbn [hd_error] in N; injection N as <-; exact I); eauto. }
  destruct x as [b|c|c|b|g|z wd|k b sh gs l0]; cbn [next_pair] in *.
  2: { apply (CH c); auto. }
  2: { apply (CH c); auto. }
  all: apply ND in E; subst d; rewrite T, f0_exact, add_fin; apply f_equal; ring.
Qed.
(** A kerned row is as wide as its characters advance and its other nodes are wide,
    plus the kerning of the characters that stand next to each other. *)
Theorem C74_row_exact : forall S (be : @backend exact S) pair l qs s t s',
  Forall2 takes l qs ->
  (forall f1 s1 f2 s2 dpi s k s', be_kern be f1 s1 f2 s2 dpi s = LOk (k, s') -> k = Fin (pair f1 s1 f2 s2)) ->
  hlist_of be l true s = LOk (t, s') -> t_width t = Fin (qsum qs + pairs pair l)%Qc.
Proof.
  intros * F2 K E. unfold hlist_of in E. apply mbind_ok in E as (l' & s1 & E1 & E).
  assert (Q : t = hpack f0 true (list_of KHList l')) by (unfold mret in E; inversion E; reflexivity). subst t. clear E.
  cbn [hpack list_of t_width b_width]. rewrite width_sum. cbn [dims0 Box.d_w]. rewrite f0_exact. change (fadd exact) with xadd. rewrite !xadd_0_l.
  revert l' s s1 E1. induction F2 as [|x q l qs T F2 IH]; intros l' s s1 E1; cbn [kern_list] in E1.
  - assert (l' = []) as -> by (unfold mret in E1; inversion E1; reflexivity). cbn [map qsum fold_right pairs]. rewrite fsum_nil. apply f_equal. ring.
  - apply mbind_ok in E1 as (d & s2 & D & E1). apply mbind_ok in E1 as (r & s3 & R & E1).
    pose proof (kern_takes _ _ _ _ _ _ _ _ _ T K D) as KT. specialize (IH _ _ _ R).
    assert (Q : fsum (map t_width l') = xadd (xadd (t_width x) d) (fsum (map t_width r))).
    { assert (L : l' = if negb (feqb exact d f0) then x :: new_kern d :: r else x :: r) by (unfold mret in E1; inversion E1; reflexivity).
      rewrite L. destruct (feqb exact d f0) eqn:Z; cbn [negb map]; rewrite !fsum_cons.
      - apply zero_iff in Z. rewrite Z. now rewrite xadd_0_r.
      - cbn [t_width new_kern]. now rewrite xadd_assoc. }
    change (fadd exact) with xadd in KT. rewrite Q, KT, IH. cbn [xadd qsum fold_right pairs]. apply f_equal. fold (qsum qs). ring.
Qed.
(** Without kerning: the sum of the widths. *)
Theorem C74_unkerned_exact : forall S (be : @backend exact S) l qs s t s',
  Forall2 (fun x q => t_width x = Fin q) l qs ->
  hlist_of be l false s = LOk (t, s') -> t_width t = Fin (qsum qs) /\ t_nodes t = l.
Proof.
  intros * F2 E. unfold hlist_of in E. apply mbind_ok in E as (l' & s1 & E1 & E).
  assert (L : l' = l) by (unfold mret in E1; inversion E1; reflexivity). subst l'.
  assert (Q : t = hpack f0 true (list_of KHList l)) by (unfold mret in E; inversion E; reflexivity). subst t.
  cbn [hpack list_of t_width b_width t_nodes]. split; [|reflexivity]. rewrite width_sum. cbn [dims0 Box.d_w]. rewrite f0_exact. change (fadd exact) with xadd. rewrite !xadd_0_l.
  clear E E1. induction F2 as [|x q l qs T F2 IH]; cbn [map qsum fold_right]; [apply fsum_nil|]. rewrite fsum_cons, T. rewrite IH. reflexivity.
Qed.

(** ** C75 *)
(** Lines are 1/16 of the font size thick, at 72 dpi, in every face. *)
Theorem C75_line_exact : forall (f : @Box.font exact) z d, f_size f = Fin z ->
  underline f (Fin d) = Fin (z * d / zq 1152)%Qc.
Proof.
  intros f z d F. unfold underline. rewrite F. change (frat 1 16) with (Fin (Q2Qc (1 # 16))). rewrite !mul_fin, div_fin by lia. apply f_equal.
  assert (zq 1152 = zq 16 * zq 72)%Qc as -> by (apply Qc_is_canon; reflexivity).
  assert (Q2Qc (1 # 16) = / zq 16)%Qc as -> by (apply Qc_is_canon; reflexivity). field. split; apply zq_nz; lia.
Qed.
Theorem C75_line_float64 : forall (f : @Box.font float64) d, underline f d = (0x1p-4 * f_size f * d / 72)%float.
Proof. intros. reflexivity. Qed.
(** The x-height is what the face says, with the opposite sign, in points; asking
    changes nothing. *)
Theorem C75_xheight : forall (A : arith) (Fnt : Type) (sf : @sfnt A Fnt) fnts (f : @Box.font A) dpi s,
  xheight sf fnts f dpi s =
  (match get_font fnts (f_type f) with
   | Some face => match sf_xheight sf face (f_size f) dpi with
                  | Some h => LOk (fdiv A (fofZ A (- h)) (fofZ A 64))
                  | None => LPanic "could not open font face"
                  end
   | None => LPanic "nil pointer"
   end, s).
Proof.
  intros. unfold xheight, cret. destruct (get_font fnts (f_type f)) as [face|]; cbn [need lbind]; [|reflexivity].
  destruct (sf_xheight sf face (f_size f) dpi); reflexivity.
Qed.

(** ** Cases *)
(** Shares of a stretch of 10 and of a compression by 10. *)
Example C73_case :
  map (fun k => Qround.Qfloor (share "fil" k (Q2Qc 10))) kinds = [5; 0; 0; 10; 10; 10; 10; 5] /\
  map (fun k => Qround.Qfloor (share "neg_fill" k (Q2Qc (-10)))) kinds = [-10; -10; -10; -10; -5; 0; -10; -10].
Proof. split; vm_compute; reflexivity. Qed.
(** A blank and two letters of a font 10 wide with ink 8 wide, kerned by -1 after "A". *)
Definition be_ten : @backend exact unit := {|
  be_kern := fun _ s1 _ _ _ => mret (if String.eqb s1 "A" then xofZ (-1) else xofZ 0);
  be_metrics := fun _ _ _ _ => mret (mk_metrics (A := exact) (xofZ 10) (xofZ 9) (xofZ 8) (xofZ 0) (xofZ 8) (xofZ (-2)) (xofZ 7) (xofZ 7) false);
  be_xheight := fun _ _ => mret (xofZ 5); be_underline := fun _ _ => mret (xofZ 1) |}.
Definition ten (s : string) : @Box.tnode exact :=
  match new_char be_ten s (mk_state (mk_font "default" "rm" (xofZ 10)) (xofZ 72)) false tt with LOk (c, _) => TChar c | _ => new_kern f0 end.
Definition ten_width (l : list string) (k : bool) : Z :=
  match hlist_of be_ten (map ten l) k tt with LOk (t, _) => fround exact (t_width t) | _ => -1 end.
(** "A", 8 wide, centred in a box 5 wide: it starts 1.5 to the left, rounded. *)
Example C73_middle_case :
  match hcentered be_ten [ten "A"] tt with
  | LOk (t0, _) =>
    match ship_call (Fin 0) (Fin 0) (hpack (A := exact) (Fin (Q2Qc 5)) false t0) with
    | LOk (_, st) => match s_out st with [EGlyph (Fin px) _ _ _ _] => Qround.Qfloor (this px) | _ => 0 end
    | _ => 0
    end
  | _ => 0
  end = -2.
Proof. vm_compute. reflexivity. Qed.
Example C74_case : ten_width [" "; "A"; "V"] true = 29 /\ ten_width [" "; "A"; "V"] false = 26 /\
  Forall2 takes (map ten [" "; "A"; "V"]) (map Q2Qc [10; 10; 10]%Q).
Proof.
  split; [vm_compute; reflexivity|]. split; [vm_compute; reflexivity|].
  repeat constructor; try (eexists; reflexivity).
Qed.
Print Assumptions C73_share_exact. Print Assumptions C74_row_exact.
