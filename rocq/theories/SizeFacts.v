(** Proof of the size semantics (SizeSpec.v). *)
From Coq Require Import ZArith String Ascii List Bool Lia QArith Qcanon Lqa.
From Verif Require Import Utf8 Token Ast SetTable Parser Symbols PropSymbols TreeSpec Arith Exact OrderLaws Box Ship ShipSpec ShipFacts ShipFacts2
  PackSpec PackFacts ExactFacts PropPack PropShip Mtex MtexTable MtexSpec FracSpec MtexFacts MtexFacts2 MtexFacts4 MtexFacts5 PropMtex ReadSpec ReadFacts
  RadFacts GeomSpec GeomFacts GeomFacts2 SizeSpec.
Import ListNotations.
Local Open Scope string_scope.
Local Open Scope list_scope.
Local Open Scope Z_scope.

(** ** Maxima *)
Lemma qmax_comm a b : qmax a b = qmax b a.
Proof.
  unfold qmax. destruct (qltb b a) eqn:E1, (qltb a b) eqn:E2; try reflexivity.
  - apply qltb_iff in E1, E2. exfalso. qc.
  - apply qltb_false in E1, E2. now apply Qcle_antisym.
Qed.
Lemma qmax_0 a : (0 <= a)%Qc -> qmax a 0 = a.
Proof. intros H. now apply qmax_l. Qed.
Lemma fold_qmax_ge l : forall a, (a <= fold_left qmax l a)%Qc.
Proof.
  induction l as [|x l IH]; intros a; cbn [fold_left]; [apply Qcle_refl|].
  eapply Qcle_trans; [|apply IH]. apply qmax_ge.
Qed.

(** ** Positions in the source *)
Lemma list_substring s : forall i n, list_ascii_of_string (substring i n s) = firstn n (skipn i (list_ascii_of_string s)).
Proof.
  induction s as [|a s IH]; intros [|i] [|n]; cbn; try reflexivity.
  - f_equal. rewrite (IH O n). reflexivity.
  - apply (IH i O).
  - apply (IH i (S n)).
Qed.
Lemma list_len s : List.length (list_ascii_of_string s) = String.length s.
Proof. induction s; cbn; auto. Qed.
Lemma get_nth s : forall n, String.get n s = nth_error (list_ascii_of_string s) n.
Proof. induction s; intros [|n]; cbn; auto. Qed.

Lemma last_find s : forall acc, last_nonspace s acc =
  match find (fun c => negb (Ascii.eqb c " ")) (rev (list_ascii_of_string s)) with Some c => Some c | None => acc end.
Proof.
  assert (FA : forall (f : ascii -> bool) l1 l2, find f (l1 ++ l2) = match find f l1 with Some x => Some x | None => find f l2 end).
  { intros f l1 l2. induction l1 as [|x l1 IH]; cbn; [reflexivity|]. destruct (f x); auto. }
  induction s as [|a s IH]; intros acc; cbn [last_nonspace list_ascii_of_string rev]; [reflexivity|].
  rewrite IH, FA. destruct (find _ _); [reflexivity|]. cbn [find]. destruct (Ascii.eqb a " "); reflexivity.
Qed.

Lemma after_opening_ok expr p before : slice expr 0 p = Some before ->
  String.eqb (prev_of before) "{" || set_has (new_set LeftDelim_list) (prev_of before) = after_opening expr p.
Proof.
  intros E. unfold slice in E. destruct (_ && _); [|discriminate E]. injection E as E.
  assert (L : list_ascii_of_string before = firstn (Z.to_nat p) (list_ascii_of_string expr)).
  { rewrite <- E, list_substring. cbn [skipn Z.to_nat]. now rewrite Z.sub_0_r. }
  unfold prev_of, after_opening. rewrite last_find, <- L.
  destruct (find _ _) as [c|].
  - destruct c as [[] [] [] [] [] [] [] []]; vm_compute; reflexivity.
  - reflexivity.
Qed.

Lemma scan_ok l : forall k s, list_ascii_of_string s = l ->
  index_dot s (Z.of_nat k) =
  match (fix scan (k : nat) (t : list ascii) : option nat :=
    match t with [] => None | a :: t' => if Ascii.eqb a "." then Some k else scan (S k) t' end) k l with
  | Some n => Z.of_nat n | None => -1 end.
Proof.
  induction l as [|a l IH]; intros k [|b s] E; cbn in E; try discriminate E; [reflexivity|].
  injection E as -> E. cbn [index_dot]. destruct (Ascii.eqb a "."); [reflexivity|].
  replace (Z.of_nat k + 1) with (Z.of_nat (Datatypes.S k)) by lia. now apply IH.
Qed.

Lemma decimal_ok expr p after : slice expr p (zlen expr) = Some after ->
  ((0 <? index_dot after 0) && digit_at expr (index_dot after 0 - 1)) &&
  ((index_dot after 0 <? zlen expr - 1) && digit_at expr (index_dot after 0 + 1)) = decimal_point expr p.
Proof.
  intros E. unfold slice in E. destruct (_ && _) eqn:B; [|discriminate E]. injection E as E.
  apply andb_true_iff in B as [B B3]. apply andb_true_iff in B as [B1 B2]. apply Z.leb_le in B1, B2.
  assert (L : list_ascii_of_string after = skipn (Z.to_nat p) (list_ascii_of_string expr)).
  { rewrite <- E, list_substring. apply firstn_all2. rewrite skipn_length, list_len. unfold zlen in *. lia. }
  unfold decimal_point. rewrite <- L. change (index_dot after 0) with (index_dot after (Z.of_nat O)). rewrite (scan_ok _ O after eq_refl).
  match goal with |- context [match ?x with Some _ => _ | None => -1 end] => destruct x as [[|q]|] end.
  - reflexivity.
  - unfold digit_at. rewrite !get_nth.
    replace (Z.to_nat (Z.of_nat (Datatypes.S q) - 1)) with q by lia.
    replace (Z.to_nat (Z.of_nat (Datatypes.S q) + 1)) with (Datatypes.S (Datatypes.S q)) by lia.
    replace (0 <? Z.of_nat (Datatypes.S q)) with true by (symmetry; apply Z.ltb_lt; lia). cbn [andb].
    unfold digit at 1, isdigit at 1. destruct (nth_error _ q) as [a|]; [|reflexivity]. f_equal.
    destruct (nth_error (list_ascii_of_string expr) (Datatypes.S (Datatypes.S q))) as [c|] eqn:N.
    + cbn [digit]. unfold isdigit.
      replace (Z.of_nat (Datatypes.S q) <? zlen expr - 1) with true; [reflexivity|]. symmetry. apply Z.ltb_lt.
      assert (H : nth_error (list_ascii_of_string expr) (Datatypes.S (Datatypes.S q)) <> None) by now rewrite N.
      apply nth_error_Some in H. rewrite list_len in H. unfold zlen. lia.
    + cbn [digit]. apply andb_false_r.
  - reflexivity.
Qed.

Section Size.
Context {S : Type}.
Variable range : Symbols.gset -> list string.
Variable be : @backend exact S.
Variable parse_float : string -> option xq.
Variable M : measures.
Variables (expr : string) (size dpi : Qc).
Notation tnode := (@Box.tnode exact).
Notation state := (@Box.state exact).
Notation row := (row M).
Notation pieces := (pieces M expr size dpi).
Notation face := (face size).
Hypothesis FR : fair range.
Hypothesis MB : measured_by M size dpi be parse_float.

Lemma row_h_ge l : (0 <= x_h (row l))%Qc. Proof. apply fold_qmax_ge. Qed.
Lemma row_d_ge l : (0 <= x_d (row l))%Qc. Proof. apply fold_qmax_ge. Qed.

(** ** Pieces and boxes *)
Definition adds (t : tnode) (e : ext) : Prop :=
  forall a b c p q, (0 <= b)%Qc -> (0 <= c)%Qc -> exists p' q',
    hpack_dims t (mk_dims (A:=exact) (Fin a) (Fin b) (Fin c) p q) =
    mk_dims (Fin (a + x_w e)) (Fin (qmax b (x_h e))) (Fin (qmax c (x_d e))) p' q'.
Definition rep (p : piece) (t : tnode) : Prop :=
  match p with
  | Glyph s f m => exists c, t = TChar c /\ c_sym c = s /\ c_font c = f /\ c_dpi c = Fin dpi /\
      m_adv (c_metrics c) = Fin (adv M s f m) /\ (exists w, c_width c = Fin w) /\
      c_height c = Fin (up M s f m) /\ c_depth c = Fin (down M s f m)
  | Solid e => stiff t /\ adds t e
  end.

(** The kern inserted after a node. *)
Definition kern_after (p : piece) (next : option piece) (w : Qc) : Qc :=
  match p with
  | Glyph s f m => (adv M s f m - w + match next with Some (Glyph s' f' _) => pair M f s f' s' | _ => 0 end)%Qc
  | Solid _ => 0%Qc
  end.
Definition own (t : tnode) : Qc := match t_width t with Fin w => w | _ => 0%Qc end.

Lemma rep_adds p t : rep p t -> adds t (mk_ext (match p with Glyph _ _ _ => own t | Solid e => x_w e end) (tall M p) (deep M p)).
Proof.
  destruct p as [s f m|e]; cbn [rep tall deep].
  - intros (c & -> & E1 & E2 & _ & _ & (w & EW) & EH & ED) a b d p q Hb Hd. cbn [hpack_dims d_w d_h d_d d_stretch d_shrink x_w x_h x_d].
    exists p, q. unfold own. cbn [t_width]. rewrite EW, EH, ED, !fmax_fin. reflexivity.
  - intros [_ H] a b c p q Hb Hc. apply (H a b c p q Hb Hc).
Qed.

Lemma kerning_rep p t next tn s d s' : rep p t ->
  match next, tn with Some q, Some u => rep q u | None, None => True | _, _ => False end ->
  kerning be t tn s = LOk (d, s') -> d = Fin (kern_after p next (own t)).
Proof.
  destruct MB as (_ & MK & _).
  intros R N E. destruct p as [sy f m|e]; cbn [rep kern_after] in *.
  - destruct R as (c & -> & E1 & E2 & E3 & EA & (w & EW) & _ & _). cbn [kerning] in E.
    unfold own. cbn [t_width]. rewrite EW.
    apply bind_ok in E as (k & s1 & E4 & E). apply ret_ok in E as [-> _]. rewrite EA, EW.
    assert (K : k = Fin (match next with Some (Glyph s' f' _) => pair M f sy f' s' | _ => 0 end)).
    { destruct next as [[sy' f' m'|e']|], tn as [u|]; try destruct N.
      - destruct H as (-> & F1 & F2 & _). rewrite E1, E2, E3, F1, F2 in E4. eapply MK. exact E4.
      - destruct u; try destruct H; apply ret_ok in E4 as [-> _]; now rewrite f0_exact.
      - apply ret_ok in E4 as [-> _]. now rewrite f0_exact. }
    rewrite K. fins. reflexivity.
  - destruct R as [ST _]. destruct t; try destruct ST; apply ret_ok in E as [-> _]; apply f0_exact.
Qed.

Lemma adds_kern w : adds (new_kern (Fin w)) (gap w).
Proof.
  intros a b c p q Hb Hc. exists p, q. cbn [hpack_dims new_kern d_w d_h d_d d_stretch d_shrink gap x_w x_h x_d]. fins.
  now rewrite !qmax_0.
Qed.

(** Packing a kerned row. *)
Lemma row_fold ps : forall l s l' s', Forall2 rep ps l -> kern_list be l s = LOk (l', s') ->
  forall a b c p q, (0 <= b)%Qc -> (0 <= c)%Qc -> exists p' q',
    fold_left (fun d x => hpack_dims x d) l' (mk_dims (A:=exact) (Fin a) (Fin b) (Fin c) p q) =
    mk_dims (Fin (a + row_width M ps)) (Fin (fold_left qmax (map (tall M) ps) b)) (Fin (fold_left qmax (map (deep M) ps) c)) p' q'.
Proof.
  induction ps as [|pc ps IH]; intros l s l' s' F2 E a b c p q Hb Hc; inversion F2 as [|? t ? l0 R F2']; subst.
  - cbn [kern_list] in E. apply ret_ok in E as [-> _]. exists p, q. cbn [fold_left row_width map]. f_equal. apply f_equal. ring.
  - cbn [kern_list] in E. apply bind_ok in E as (d & s1 & E1 & E). apply bind_ok in E as (r & s2 & E2 & E). apply ret_ok in E as [-> _].
    assert (D : d = Fin (kern_after pc (hd_error ps) (own t))).
    { eapply kerning_rep; [exact R| |exact E1]. destruct F2'; cbn [hd_error]; auto. }
    pose proof (rep_adds _ _ R) as AD. cbn [map fold_left].
    destruct (AD a b c p q Hb Hc) as (p1 & q1 & H1). cbn [x_w x_h x_d] in H1.
    assert (GB : (0 <= qmax b (tall M pc))%Qc) by (eapply Qcle_trans; [exact Hb|apply qmax_ge]).
    assert (GC : (0 <= qmax c (deep M pc))%Qc) by (eapply Qcle_trans; [exact Hc|apply qmax_ge]).
    assert (W : (row_width M (pc :: ps) = match pc with Glyph _ _ _ => own t | Solid e => x_w e end + kern_after pc (hd_error ps) (own t) + row_width M ps)%Qc).
    { cbn [row_width kern_after]. destruct pc as [sy f m|e]; cbn [kern_after]; [|ring]. destruct ps as [|[]]; cbn [hd_error]; ring. }
    destruct (negb (feqb exact d f0)) eqn:Z; cbn [fold_left]; rewrite H1.
    + rewrite D. destruct (adds_kern (kern_after pc (hd_error ps) (own t)) (a + match pc with Glyph _ _ _ => own t | Solid e => x_w e end)%Qc _ _ p1 q1 GB GC) as (p2 & q2 & ->).
      cbn [gap x_w x_h x_d]. rewrite !qmax_0 by assumption.
      destruct (IH _ _ _ _ F2' E2 (a + match pc with Glyph _ _ _ => own t | Solid e => x_w e end + kern_after pc (hd_error ps) (own t))%Qc _ _ p2 q2 GB GC) as (p3 & q3 & ->).
      exists p3, q3. rewrite W. f_equal. apply f_equal. ring.
    + assert (K0 : kern_after pc (hd_error ps) (own t) = 0%Qc).
      { apply negb_false_iff in Z. rewrite D in Z. apply zero_iff in Z. now apply fin_inj in Z. }
      destruct (IH _ _ _ _ F2' E2 (a + match pc with Glyph _ _ _ => own t | Solid e => x_w e end)%Qc _ _ p1 q1 GB GC) as (p3 & q3 & ->).
      exists p3, q3. rewrite W, K0. f_equal. apply f_equal. ring.
Qed.

(** [t] is an unshifted horizontal list of the size [e]. *)
Definition hx (t : tnode) (e : ext) : Prop :=
  exists b gs l, t = TL KHList b (Fin 0) gs l /\ b_size b <= 0 /\
    b_width b = Fin (x_w e) /\ b_height b = Fin (x_h e) /\ b_depth b = Fin (x_d e) /\ (0 <= x_h e)%Qc /\ (0 <= x_d e)%Qc.
Lemma hx_hbox t e : hx t e -> hbox_of t (x_w e) (x_h e) (x_d e).
Proof. intros (b & gs & l & -> & _ & H1 & H2 & H3 & _). exists b, gs, l. auto. Qed.
Lemma hx_stiff t e : hx t e -> stiff t. Proof. intros (b & gs & l & -> & _). exact I. Qed.
Lemma hx_rep t e : hx t e -> rep (Solid e) t.
Proof.
  intros (b & gs & l & -> & _ & H1 & H2 & H3 & _). split; [exact I|]. intros a x c p q Hx Hc. exists p, q.
  cbn [hpack_dims]. rewrite H1, H2, H3, !finf_fin. cbn [orb d_w d_h d_d d_stretch d_shrink]. fins. rewrite !fmax_fin.
  apply mk_dims_eq; apply f_equal; [reflexivity| |]; f_equal; ring.
Qed.

Lemma hlist_row ps l s t s' : Forall2 rep ps l -> hlist_of be l true s = LOk (t, s') -> hx t (row ps).
Proof.
  intros F2 E. unfold hlist_of in E. apply bind_ok in E as (l' & s1 & E1 & E). apply ret_ok in E as [-> _].
  destruct (row_fold ps l s l' s1 F2 E1 0 0 0 zeros zeros (Qcle_refl _) (Qcle_refl _)) as (p & q & EF).
  assert (D0 : @dims0 exact = mk_dims (Fin 0) (Fin 0) (Fin 0) zeros zeros) by (unfold dims0; now rewrite f0_exact).
  unfold hx, list_of. cbn [hpack]. rewrite D0, EF. cbn [d_w d_h d_d]. do 3 eexists. rewrite f0_exact. split; [reflexivity|].
  cbn [b_size b_width b_height b_depth new_box SizeSpec.row x_w x_h x_d]. split; [lia|]. fins.
  split; [apply f_equal; ring|]. split; [reflexivity|]. split; [reflexivity|]. split; apply fold_qmax_ge.
Qed.

(** ** Shifted boxes, gaps *)
Lemma rep_kern w : rep (Solid (gap w)) (new_kern (Fin w)). Proof. split; [exact I|apply adds_kern]. Qed.
Lemma rep_hbox w : rep (Solid (gap w)) (hbox (Fin w)).
Proof.
  split; [exact I|]. intros a b c p q Hb Hc. exists p, q. unfold hbox. cbn [hpack_dims new_box b_width b_height b_depth]. rewrite !f0_exact, !finf_fin.
  cbn [orb d_w d_h d_d d_stretch d_shrink gap x_w x_h x_d]. fins. now rewrite !fmax_fin.
Qed.
Lemma rep_tl k b sh gs l w h d : b_width b = Fin w -> b_height b = Fin h -> b_depth b = Fin d ->
  rep (Solid (mk_ext w (h - sh) (d + sh))) (TL k b (Fin sh) gs l).
Proof.
  intros H1 H2 H3. split; [exact I|]. intros a x c p q Hx Hc. exists p, q.
  cbn [hpack_dims]. rewrite H1, H2, H3, !finf_fin. cbn [orb d_w d_h d_d d_stretch d_shrink x_w x_h x_d]. fins. now rewrite !fmax_fin.
Qed.

Lemma shrink_hx t e s t' s' : hx t e -> shrink be t s = LOk (t', s') -> hx t' (scale (Q2Qc (7 # 10)) e).
Proof.
  intros (b & gs & l & -> & B & H1 & H2 & H3 & P1 & P2) E. cbn [shrink] in E.
  apply bind_ok in E as (l' & s1 & _ & E). apply ret_ok in E as [-> _].
  assert (BS : (b_size b - 1 <? num_size_levels) = true) by (apply Z.ltb_lt; unfold num_size_levels; lia).
  unfold box_shrink. rewrite BS. cbn [scale_box b_size box_size b_width b_height b_depth]. rewrite BS.
  rewrite shrink_exact. cbn [t_glue]. eexists _, _, l'. split.
  { f_equal. fins. apply f_equal. ring. }
  cbn [scale_box b_size box_size b_width b_height b_depth scale x_w x_h x_d]. rewrite H1, H2, H3. fins.
  split; [lia|]. do 3 (split; [apply f_equal; ring|]).
  assert (K : (0 <= Q2Qc (7 # 10))%Qc) by (unfold Qcle, Qle; cbn; lia).
  split; [rewrite <- (Qcmult_0_l (x_h e))|rewrite <- (Qcmult_0_l (x_d e))]; now apply Qcmult_le_compat_r.
Qed.

(** ** Glyphs and spaces *)
Definition at_font (f : font) : state := mk_state f (Fin dpi).
Notation stt typ := (at_font (face typ)).

Lemma char_rep sym f z m s c s' : f_size f = Fin z -> new_char be sym (at_font f) m s = LOk (c, s') -> rep (Glyph sym f m) (TChar c).
Proof.
  destruct MB as (MM & _). unfold new_char. cbn [at_font st_font st_dpi]. intros FZ E. apply bind_ok in E as (x & s1 & E1 & E).
  apply ret_ok in E as [-> _]. destruct (MM _ _ _ _ _ _ _ FZ E1) as (HA & HI & HH & (w & HW) & _).
  eexists. split; [reflexivity|]. cbn [c_sym c_font c_dpi c_metrics c_width c_height c_depth]. rewrite HI, HH. fins.
  do 4 (split; [first [reflexivity|assumption]|]). split.
  { destruct (String.eqb sym " "); eauto. }
  split; [reflexivity|]. apply f_equal. ring.
Qed.

Lemma frat_fin n d : d <> 0 -> @frat exact n d = Fin (Q2Qc (n # 1) / Q2Qc (d # 1)).
Proof.
  intros H. unfold frat. cbn [fdiv fofZ exact]. unfold xofZ. cbn [xdiv].
  destruct (qeqb (Q2Qc (inject_Z d)) 0) eqn:E; [|reflexivity]. exfalso. apply qeqb_iff in E.
  apply (f_equal this) in E. cbn [this Q2Qc] in E. assert (Q : (inject_Z d == 0)%Q) by (rewrite <- (Qred_correct (inject_Z d)), E; reflexivity).
  unfold Qeq in Q. cbn in Q. lia.
Qed.
Lemma space_ok typ (q : Qc) s t s' : make_space be (stt typ) (Fin q) s = LOk (t, s') -> t = new_kern (Fin (em M size * q)).
Proof.
  destruct MB as (MM & _). intros E. apply make_space_ok in E as (m & E & ->).
  destruct (MM "m" (mk_font "it" "it" (Fin size)) size _ _ _ _ eq_refl E) as (HA & _). rewrite HA. reflexivity.
Qed.
Lemma space_frat typ n d s t s' : d <> 0 -> make_space be (stt typ) (frat n d) s = LOk (t, s') -> rep (Solid (gap (em_over M size n d))) t.
Proof. intros D. rewrite frat_fin by assumption. intros E. apply space_ok in E as ->. apply rep_kern. Qed.

Lemma handle_space_ok typ name s t s' : handle_space be name (stt typ) s = LOk (t, s') -> rep (Solid (gap (space_of M size name))) t.
Proof.
  unfold handle_space. intros E. unfold space_width in E. cbn [assoc] in E. unfold space_of, space_ems. cbn [find fst].
  repeat match type of E with context [String.eqb name ?x] => destruct (String.eqb name x) end.
  all: try discriminate E.
  all: apply space_frat in E; [|discriminate].
  all: match goal with |- rep (Solid (gap ?x)) _ => match type of E with rep (Solid (gap ?y)) _ => replace x with y; [exact E|] end end.
  all: unfold em_over; f_equal; apply Qc_is_canon; reflexivity.
Qed.

Lemma symbol_ok typ m sym pos s t s' : handle_symbol range be expr sym pos (stt typ) m s = LOk (t, s') ->
  Forall2 rep (symbol M expr size m typ sym pos) [t].
Proof.
  intros E. unfold handle_symbol in E. apply bind_ok in E as (c & s1 & E1 & E). apply (char_rep _ _ size) in E1; [|reflexivity].
  assert (SP : is_spaced range sym = one_of (BinaryOperators_list ++ RelationSymbols_list ++ ArrowSymbols_list) sym).
  { apply eq_iff_eq_true. rewrite (C20_is_spaced range sym FR), one_of_in, !in_app_iff. reflexivity. }
  unfold symbol. rewrite <- SP. destruct (is_spaced range sym).
  - apply bind_ok in E as (bf & s2 & E2 & E). apply mlift_ok in E2. unfold obool_lres in E2.
    destruct (slice expr 0 pos) as [b0|] eqn:SL; [|discriminate E2]. injection E2 as ->.
    rewrite (after_opening_ok _ _ _ SL), set_has_list in E.
    destruct (one_of BinaryOperators_list sym && after_opening expr pos).
    + apply ret_ok in E as [-> _]. repeat constructor. exact E1.
    + apply bind_ok in E as (k1 & s3 & K1 & E). apply bind_ok in E as (k2 & s4 & K2 & E).
      apply space_frat in K1; [|discriminate]. apply space_frat in K2; [|discriminate].
      constructor; [|constructor]. apply hx_rep. eapply hlist_row; [|exact E]. repeat constructor; try apply K1; try apply K2. exact E1.
  - rewrite set_has_list in E. destruct (one_of PunctuationSymbols_list sym) eqn:PU.
    + destruct (String.eqb sym ".") eqn:DOT; [|discriminate E].
      apply bind_ok in E as (af & s2 & E2 & E). apply mlift_ok in E2. unfold obool_lres in E2.
      destruct (slice expr pos (zlen expr)) as [b0|] eqn:SL; [|discriminate E2]. injection E2 as ->.
      cbv zeta in E. rewrite (decimal_ok _ _ _ SL) in E. destruct (decimal_point expr pos).
      * apply ret_ok in E as [-> _]. repeat constructor. exact E1.
      * apply bind_ok in E as (k1 & s3 & K1 & E). apply space_frat in K1; [|discriminate].
        constructor; [|constructor]. apply hx_rep. eapply hlist_row; [|exact E]. repeat constructor; try apply K1. exact E1.
    + apply ret_ok in E as [-> _].
      assert (DN : String.eqb sym "." = false).
      { destruct (String.eqb sym ".") eqn:DOT; [|reflexivity]. apply String.eqb_eq in DOT. subst sym. vm_compute in PU. discriminate PU. }
      rewrite DN. repeat constructor. exact E1.
Qed.

Lemma chars_ok typ m text s ns s' : new_chars be text (stt typ) m s = LOk (ns, s') ->
  Forall2 rep (map (letter size m typ) (letters text)) ns.
Proof.
  unfold new_chars. change (rune_strings text) with (letters text). revert s ns s'.
  induction (letters text) as [|x l IH]; intros s ns s' E; cbn [mmap] in E.
  - apply ret_ok in E as [-> _]. constructor.
  - apply bind_ok in E as (c & s1 & E1 & E). apply bind_ok in E as (r & s2 & E2 & E). apply ret_ok in E as [-> _].
    apply bind_ok in E1 as (c0 & s3 & E3 & E1). apply ret_ok in E1 as [-> _]. cbn [map]. constructor; [|eapply IH; exact E2].
    apply (char_rep _ _ size) in E3; [|reflexivity]. exact E3.
Qed.

(** ** Delimiters *)
Lemma delimiter_ok c typ H D s t s' : In c ["("; ")"; "\__sqrt__"] ->
  auto_height_char be c (Fin H) (Fin D) (stt typ) f0 s = LOk (t, s') ->
  let e := delimiter M c (face typ) H D in
  exists b sh gs l, t = TL KHList b (Fin sh) gs l /\ b_width b = Fin (x_w e) /\ above t = Fin (x_h e) /\ beneath t = Fin (x_d e).
Proof.
  intros IC E. destruct MB as (MM & _ & _ & _ & MF). unfold auto_height_char in E.
  apply bind_ok in E as (x & s0 & E0 & E). apply bind_ok in E as (ch & s1 & E1 & E).
  assert (A1 : exists x1 s2, be_metrics be c (face typ) (Fin dpi) true s0 = LOk (x1, s2)).
  { unfold new_char in E1. apply bind_ok in E1 as (x1 & s2 & E1 & _). exists x1, s2. exact E1. }
  destruct A1 as (x1 & s2 & A1).
  apply (char_rep _ _ size) in E1 as (c0 & [= <-] & _ & _ & _ & _ & _ & EH & ED); [|reflexivity].
  assert (NE : negb (String.eqb (f_name (st_font (stt typ))) "") = true) by reflexivity.
  rewrite NE in E. replace (feqb exact f0 f0) with true in E by reflexivity. rewrite EH, ED in E.
  assert (KE : fdiv exact (fadd exact (Fin H) (Fin D)) (fadd exact (Fin (up M c (face typ) true)) (Fin (down M c (face typ) true))) =
     Fin ((H + D) / (up M c (face typ) true + down M c (face typ) true))).
  { fins. cbn [fdiv exact xdiv]. destruct (qeqb _ 0) eqn:Q; [|reflexivity]. apply qeqb_iff in Q. destruct (MF c (face typ) _ _ _ IC eq_refl A1 Q). }
  rewrite KE in E. set (k := ((H + D) / (up M c (face typ) true + down M c (face typ) true))%Qc) in *.
  change (mk_state (scale_font (Fin k) (st_font (stt typ))) (st_dpi (stt typ))) with (at_font (resize k (face typ))) in E.
  apply bind_ok in E as ((ch2, sc) & s3 & E3 & E). apply bind_ok in E3 as (ch' & s4 & E4 & E3). apply ret_ok in E3 as [E3 _].
  pose proof (f_equal fst E3) as X1. pose proof (f_equal snd E3) as X2. cbn [fst snd] in X1, X2. clear E3. subst ch2 sc.
  apply (char_rep _ _ (size * k)) in E4; [|reflexivity]. cbn [fst snd] in E. apply bind_ok in E as (hl & s6 & E6 & E). apply ret_ok in E as [-> _].
  apply (hlist_row [Glyph c (resize k (face typ)) true]) in E6; [|constructor; [exact E4|constructor]].
  destruct E6 as (b & gs & l & -> & _ & W & Hh & Hd & _). destruct E4 as (c1 & [= <-] & _ & _ & _ & _ & _ & _ & ED').
  rewrite ED'. cbn [set_shift]. fins. cbv zeta. unfold delimiter. fold k. eexists b, _, gs, l. split; [reflexivity|].
  unfold above, beneath. cbn [t_height t_depth t_shift]. rewrite W, Hh, Hd. cbn [x_w x_h x_d].
  cbn [SizeSpec.row row_width map fold_left tall deep x_w x_h x_d]. fins.
  split; [apply f_equal; ring|]. split; reflexivity.
Qed.
Lemma delimiter_rep c typ H D s t s' : In c ["("; ")"; "\__sqrt__"] ->
  auto_height_char be c (Fin H) (Fin D) (stt typ) f0 s = LOk (t, s') -> rep (Solid (delimiter M c (face typ) H D)) t.
Proof.
  intros IC E. destruct (delimiter_ok _ _ _ _ _ _ _ IC E) as (b & sh & gs & l & -> & W & Ha & Hb).
  unfold above, beneath in Ha, Hb. cbn [t_height t_depth t_shift] in Ha, Hb.
  split; [exact I|]. intros a x y p q Hx Hy. exists p, q. cbn [hpack_dims].
  destruct (b_height b) as [h| | |]; try discriminate Ha. destruct (b_depth b) as [d| | |]; try discriminate Hb.
  rewrite W, !finf_fin. cbn [orb d_w d_h d_d d_stretch d_shrink]. rewrite Ha, Hb. fins. now rewrite !fmax_fin.
Qed.

(** ** Fractions *)
Lemma natural_row ps l t : Forall2 rep ps l -> (forall x, In x l -> stiff x) -> natural_h l t -> forall s : S, hx t (row ps).
Proof.
  intros F2 ST N s. apply (hlist_row ps l s t s F2). unfold hlist_of, mbind. rewrite (kern_stiff be eq_refl l ST s). rewrite N. reflexivity.
Qed.

Lemma stacked_row num den en ed th r ax t (s : S) : hx num en -> hx den ed -> stacked (A:=exact) num den (Fin th) (Fin r) (Fin ax) t ->
  hx t (fraction M th r ax en ed).
Proof.
  intros Hn Hd (cn & cd & stk & C1 & C2 & NV & NH).
  pose proof Hn as (bn & gn & ln & -> & _ & Wn & Hn1 & Hn2 & Pn1 & Pn2).
  pose proof Hd as (bd & gd & ld & -> & _ & Wd & Hd1 & Hd2 & Pd1 & Pd2).
  cbn [t_width] in C1, C2. rewrite Wn, Wd, fmax_fin in C1, C2.
  destruct (centred_dims _ _ _ _ _ _ C1 (hx_hbox _ _ Hn) Pn1 Pn2) as (b1 & g1 & -> & A1 & A2 & A3).
  destruct (centred_dims _ _ _ _ _ _ C2 (hx_hbox _ _ Hd) Pd1 Pd2) as (b2 & g2 & -> & B1 & B2 & B3).
  destruct (stack_box _ _ _ _ _ _ _ _ _ _ _ _ _ _ A1 A2 A3 B1 B2 B3 NV) as (b & gs & -> & D1 & D2 & D3).
  cbn [set_shift t_height] in NH. rewrite B2 in NH.
  refine (natural_row _ _ _ _ _ NH s).
  - constructor; [|constructor; [|constructor]].
    + fins. match goal with |- rep _ (TL _ _ (Fin ?x) _ _) => set (sh := x) end.
      pose proof (fun l0 => rep_tl KVList b sh gs l0 _ _ _ D1 D2 D3) as R.
      replace (mk_ext (qmax 0 (qmax (x_w en) (x_w ed))) (ax + (th + r) + x_d en + x_h en) (x_d ed + x_h ed + (th + th + th) - ax))
        with (mk_ext (qmax 0 (qmax (x_w en) (x_w ed))) (x_h en + x_d en + (th + th) + r + (th + th) + x_h ed - sh) (x_d ed + sh)); [apply R|].
      unfold sh. f_equal; ring.
    + fins. replace (th + th)%Qc with ((1 + 1) * th)%Qc by ring. apply rep_hbox.
  - intros x [<-|[<-|[]]]; exact I.
Qed.

Lemma style_ok sty num en s num' s' : hx num en -> style_shrink be sty num s = LOk (num', s') ->
  hx num' (match sty with DisplayStyle => en | TextStyle => scale (Q2Qc (7 # 10)) en end).
Proof. intros H E. destruct sty; [apply ret_ok in E as [-> _]; exact H|]. eapply shrink_hx; eauto. Qed.

Lemma genfrac_size ld rd r sty num den en ed typ s t s' :
  hx num en -> hx den ed -> (0 <= r)%Qc -> (ld = "" /\ rd = "") \/ (ld = "(" /\ rd = ")" /\ r = 0%Qc) ->
  genfrac be ld rd (Fin r) sty num den (stt typ) s = LOk (t, s') ->
  let sz e := match sty with DisplayStyle => e | TextStyle => scale (Q2Qc (7 # 10)) e end in
  let th := line M (face typ) in
  hx t (if String.eqb ld "" then fraction M th r (axis M size) (sz en) (sz ed)
        else binomial M th (axis M size) (face typ) (sz en) (sz ed)).
Proof.
  intros Hn Hd R0 LR E sz th.
  assert (RN : fltb exact (Fin r) f0 = false) by (rewrite f0_exact, fltb_exact; now apply qltb_ge).
  apply (genfrac_ok be eq_refl) in E as (th' & s1 & num' & s2 & den' & s3 & me & bx & s4 & G1 & G2 & G3 & G4 & ST & E); [|exact RN].
  pose proof (style_ok _ _ _ _ _ _ Hn G2) as Hn'. pose proof (style_ok _ _ _ _ _ _ Hd G3) as Hd'.
  destruct MB as (MM & _ & ML & _). apply ML in G1 as [-> _]; [|reflexivity]. cbn [st_font st_dpi at_font f_name f_size] in *.
  destruct (MM "=" (face "it") size _ _ _ _ eq_refl G4) as (_ & _ & _ & _ & (tp & bt & E1 & E2 & E3)).
  assert (MID : middle me = Fin (axis M size)).
  { unfold middle. rewrite E1, E2. fins. change (mk_font (f_name (face typ)) "it" (f_size (face typ))) with (face "it") in E3. unfold axis. rewrite <- E3. reflexivity. }
  rewrite MID in ST. pose proof (stacked_row _ _ _ _ _ _ _ _ s Hn' Hd' ST) as HX.
  change (st_font (stt typ)) with (face typ) in *. fold th in HX. fold (sz en) in HX. fold (sz ed) in HX.
  destruct LR as [[-> ->]|(-> & -> & ->)].
  - cbn [String.eqb negb orb] in E. destruct E as [-> _]. exact HX.
  - cbn [String.eqb negb orb] in E. change (if negb (String.eqb "(" "") || negb (String.eqb ")" "") then _ else _) with
      (auto_sized_delimiter be "(" bx ")" (stt typ) s4 = LOk (t, s')) in E.
    apply (delim_ok be eq_refl) in E; [|destruct HX as (b & gs & l & -> & _); exact I].
    destruct E as (l & s5 & rr & bl & sl & gl & cl & kl & br & sr & gr & cr & kr & L1 & R1 & NH & EL & ER & _).
    pose proof HX as (b & gs & l0 & EB & _ & _ & Hh & Hdp & P1 & P2). cbn [String.eqb].
    change (String.eqb "(" "") with false. cbv iota. unfold binomial.
    set (bb := fraction M th 0 (axis M size) (sz en) (sz ed)) in *.
    assert (EH : fmax exact f0 (t_height bx) = Fin (x_h bb)).
    { rewrite EB. cbn [t_height]. rewrite Hh, f0_exact, fmax_fin, qmax_r by exact P1. reflexivity. }
    assert (EDp : fmax exact f0 (t_depth bx) = Fin (x_d bb)).
    { rewrite EB. cbn [t_depth]. rewrite Hdp, f0_exact, fmax_fin, qmax_r by exact P2. reflexivity. }
    rewrite EH, EDp in L1, R1.
    apply delimiter_rep in L1; [|cbn; auto]. apply delimiter_rep in R1; [|cbn; auto].
    refine (natural_row _ _ _ _ _ NH s).
    + constructor; [exact L1|]. constructor; [now apply hx_rep|]. constructor; [exact R1|constructor].
    + intros x [<-|[<-|[<-|[]]]]; [now rewrite EL|eapply hx_stiff; exact HX|now rewrite ER].
Qed.

(** ** Bars *)
Lemma bar_ok inner e r H lim t : hx inner e -> under_bar (A:=exact) inner (Fin r) (Fin H) (Fin lim) t ->
  rep (Solid (mk_ext (qmax 0 (x_w e)) H (qmin (x_d e) lim))) t /\ stiff t.
Proof.
  intros (b & gs & l & -> & _ & W & Hh & Hd & _) (r0 & N & V).
  destruct (under_fold (x_w e) (x_h e) (x_d e) r b gs l W Hh Hd) as (s1 & s2 & VF).
  unfold natural_v, list_of in N. change (fpinf exact) with PInf in N at 1 2.
  replace (fmul exact (frat 1 2) (Fin r)) with (Fin (half * r)) in N by (fins; reflexivity).
  cbn [vpack] in N. rewrite VF in N. cbn [d_d d_h d_w] in N.
  match type of N with LOk ?x = LOk _ => assert (N' : r0 = x) by (inversion N; reflexivity) end. clear N. subst r0.
  cbn [vpack] in V. rewrite VF in V. cbn [d_d d_h d_w] in V.
  match type of V with LOk ?x = LOk _ => assert (V' : t = x) by (inversion V; reflexivity) end. clear V. subst t.
  split; [|exact I]. rewrite f0_exact. rewrite fltb_fin.
  match goal with |- rep _ (TL ?k ?bb _ ?g ?ll) =>
    pose proof (rep_tl k bb 0%Qc g ll (qmax 0 (x_w e)) H (qmin (x_d e) lim)) as R end.
  cbn [b_width b_height b_depth b_size] in R.
  assert (Q : (if qltb lim (x_d e) then Fin lim else Fin (x_d e)) = Fin (qmin (x_d e) lim)).
  { unfold qmin. destruct (qltb lim (x_d e)) eqn:E1, (qltb (x_d e) lim) eqn:E2; try reflexivity.
    - apply qltb_iff in E1, E2. exfalso. qc.
    - apply qltb_false in E1, E2. apply f_equal. now apply Qcle_antisym. }
  specialize (R eq_refl eq_refl Q).
  replace (mk_ext (qmax 0 (x_w e)) H (qmin (x_d e) lim)) with (mk_ext (qmax 0 (x_w e)) (H - 0) (qmin (x_d e) lim + 0)); [exact R|].
  f_equal; ring.
Qed.
Lemma qmin_self a : qmin a a = a. Proof. unfold qmin. destruct (qltb a a); reflexivity. Qed.

Lemma row_one e : (0 <= x_h e)%Qc -> (0 <= x_d e)%Qc -> row [Solid e] = e.
Proof.
  intros H1 H2. destruct e as [w h d]. unfold SizeSpec.row. cbn [row_width map fold_left tall deep x_w x_h x_d] in *.
  rewrite (qmax_r 0 h), (qmax_r 0 d) by assumption. f_equal. ring.
Qed.
Lemma hx_above t e : hx t e -> above t = Fin (x_h e) /\ beneath t = Fin (x_d e).
Proof.
  intros (b & gs & l & -> & _ & _ & Hh & Hd & _). unfold above, beneath. cbn [t_height t_depth t_shift]. rewrite Hh, Hd. fins.
  split; apply f_equal; ring.
Qed.

Lemma extra_ok typ : extra (stt typ) = Fin (clearance size dpi).
Proof. reflexivity. Qed.

Lemma overline_size body e typ s t s' : hx body e -> overline_box be body (stt typ) s = LOk (t, s') ->
  hx t (overline M (line M (face typ)) (clearance size dpi) e).
Proof.
  intros HB E. apply (overline_ok be eq_refl) in E as (th & s1 & rule & T1 & T2 & OV); [|reflexivity|eapply hx_stiff; exact HB].
  destruct MB as (_ & _ & ML & _). unfold thick in T1, T2. apply ML in T1 as [-> _]; [|reflexivity]. apply ML in T2 as [-> _]; [|reflexivity].
  change (st_font (stt typ)) with (face typ) in *. rewrite extra_ok in OV. destruct OV as (inner & rhs & N1 & UB & N2).
  destruct (hx_above _ _ HB) as [HA HBe]. rewrite HA, HBe in UB. set (th := line M (face typ)) in *.
  replace (fadd exact (fadd exact (Fin (x_h e)) (fmul exact (fofZ exact 3) (Fin th))) (Fin (clearance size dpi)))
    with (Fin (x_h e + (th + th + th) + clearance size dpi)) in UB by (fins; apply f_equal; ring).
  pose proof HB as (b0 & gs0 & l0 & _ & _ & _ & _ & _ & P1 & P2).
  assert (HI : hx inner e).
  { rewrite <- (row_one e P1 P2). refine (natural_row _ _ _ _ _ N1 s); [constructor; [now apply hx_rep|constructor]|].
    intros x [<-|[]]. eapply hx_stiff; exact HB. }
  destruct (bar_ok _ _ _ _ _ _ HI UB) as [R ST]. rewrite qmin_self in R.
  refine (natural_row _ _ _ _ _ N2 s); [constructor; [exact R|constructor]|]. intros x [<-|[]]. exact ST.
Qed.

Lemma vlist_one inner e vl sh : hx inner e -> natural_v (A:=exact) [inner] vl ->
  rep (Solid (mk_ext (qmax 0 (x_w e)) (x_h e - sh) (x_d e + sh))) (set_shift (Fin sh) vl) /\ stiff (set_shift (Fin sh) vl).
Proof.
  intros (b & gs & l & -> & _ & W & Hh & Hd & _) N. unfold natural_v, list_of in N.
  cbn [vpack vfold vpack_dims dims0 d_d d_h d_w] in N. rewrite W, Hh, Hd, finf_fin in N.
  cbn [d_d d_h d_w] in N. change (fltb exact (fpinf exact) (Fin (x_d e))) with false in N. cbv iota in N.
  match type of N with LOk ?x = LOk _ => assert (N' : vl = x) by (inversion N; reflexivity) end. clear N. subst vl.
  cbn [set_shift]. split; [|exact I]. apply rep_tl; cbn [b_width b_height b_depth]; fins; rewrite ?fmax_fin; try reflexivity.
  apply f_equal. ring.
Qed.

Lemma sqrt_size root ei body e typ s t s' :
  match root, ei with Some r, Some i => hx r i | None, None => True | _, _ => False end ->
  hx body e -> sqrt_box be root body (stt typ) s = LOk (t, s') ->
  hx t (radical M (line M (face typ)) (clearance size dpi) (face typ)
     (option_map (fun i => scale (Q2Qc (7 # 10)) (scale (Q2Qc (7 # 10)) i)) ei) e).
Proof.
  intros HR HB E.
  apply (sqrt_ok be eq_refl) in E as (th & s1 & check & s2 & rule & s3 & r & T1 & CK & T2 & IX & RD);
    [|reflexivity|eapply hx_stiff; exact HB|intros r ->; destruct ei; [eapply hx_stiff; exact HR|destruct HR]].
  destruct MB as (_ & _ & ML & _). unfold thick in T1, T2. apply ML in T1 as [-> _]; [|reflexivity]. apply ML in T2 as [-> _]; [|reflexivity].
  change (st_font (stt typ)) with (face typ) in *. rewrite extra_ok in RD. set (th := line M (face typ)) in *.
  destruct (hx_above _ _ HB) as [HA HBe]. rewrite HA, HBe in CK.
  replace (fadd exact (Fin (x_h e)) (fmul exact (fofZ exact 5) (Fin th))) with (Fin (x_h e + (th + th + th + th + th))) in CK
    by (fins; apply f_equal; ring).
  pose proof (delimiter_rep _ _ _ _ _ _ _ (or_intror (or_intror (or_introl eq_refl))) CK) as RC.
  destruct (delimiter_ok _ _ _ _ _ _ _ (or_intror (or_intror (or_introl eq_refl))) CK) as (bc & sc & gc & lc & EC & WC & AC & BC).
  unfold SizeSpec.radical. set (c := delimiter M "\__sqrt__" (face typ) (x_h e + (th + th + th + th + th)) (x_d e)) in *.
  destruct RD as (padded & rhs & inner & vl & N1 & UB & N2 & N3 & N4).
  assert (TW : t_width check = Fin (x_w c)) by (rewrite EC; exact WC).
  rewrite AC, BC in UB. rewrite AC, TW in N4.
  pose proof HB as (b0 & gs0 & l0 & _ & _ & _ & _ & _ & P1 & P2).
  (* the padded body *)
  assert (HP : hx padded (mk_ext (x_w e + (th + th + th + th)) (x_h e) (x_d e))).
  { replace (mk_ext (x_w e + (th + th + th + th)) (x_h e) (x_d e)) with (row [Solid (gap (th + th)); Solid e; Solid (gap (th + th))]).
    - replace (fmul exact (fofZ exact 2) (Fin th)) with (Fin (th + th)) in N1 by (fins; apply f_equal; ring).
      refine (natural_row _ _ _ _ _ N1 s).
      + constructor; [apply rep_hbox|]. constructor; [now apply hx_rep|]. constructor; [apply rep_hbox|constructor].
      + intros x [<-|[<-|[<-|[]]]]; try exact I. eapply hx_stiff; exact HB.
    - unfold SizeSpec.row. cbn [row_width map fold_left tall deep gap x_w x_h x_d].
      rewrite (qmax_l 0 0) by apply Qcle_refl. rewrite (qmax_r 0 (x_h e)), (qmax_r 0 (x_d e)), !qmax_0 by assumption. f_equal. ring. }
  replace (fadd exact (Fin (x_h c)) (Fin (clearance size dpi))) with (Fin (x_h c + clearance size dpi)) in UB by reflexivity.
  destruct (bar_ok _ _ _ _ _ _ HP UB) as [RU SU]. cbn [x_w x_d] in RU.
  (* the index *)
  set (i := match option_map (fun i => scale (Q2Qc (7 # 10)) (scale (Q2Qc (7 # 10)) i)) ei with Some i => i | None => gap (x_w c * Q2Qc (1 # 2)) end).
  assert (HI : hx inner i).
  { destruct root as [x|], ei as [ie|]; try (exfalso; exact HR); cbn [index_of option_map] in IX; subst i; cbn [option_map].
    - destruct IX as (x1 & s4 & S1 & S2). eapply shrink_hx in S1; [|exact HR]. eapply shrink_hx in S2; [|exact S1].
      pose proof S2 as (b1 & gs1 & l1 & _ & _ & _ & _ & _ & Q1 & Q2).
      rewrite <- (row_one _ Q1 Q2). refine (natural_row _ _ _ _ _ N2 s); [constructor; [now apply hx_rep|constructor]|].
      intros y [<-|[]]. eapply hx_stiff; exact S2.
    - destruct IX as [-> _]. rewrite TW in N2.
      rewrite <- (row_one (gap (x_w c * Q2Qc (1 # 2)))) by apply Qcle_refl.
      refine (natural_row _ _ _ _ _ N2 s); [constructor; [apply rep_hbox|constructor]|]. intros y [<-|[]]. exact I. }
  replace (fmul exact (fopp exact (Fin (x_h c))) (frat 3 5)) with (Fin (- (x_h c * Q2Qc (3 # 5)))) in N4
    by (rewrite frat_35; fins; apply f_equal; ring).
  replace (fmul exact (fopp exact (Fin (x_w c))) (frat 1 2)) with (Fin (- (x_w c * Q2Qc (1 # 2)))) in N4
    by (fins; unfold half; apply f_equal; ring).
  destruct (vlist_one _ _ _ (- (x_h c * Q2Qc (3 # 5))) HI N3) as [RV SV].
  refine (natural_row _ _ _ _ _ N4 s).
  - constructor.
    { replace (x_h i + x_h c * Q2Qc (3 # 5))%Qc with (x_h i - - (x_h c * Q2Qc (3 # 5)))%Qc by ring. exact RV. }
    constructor; [apply rep_kern|]. constructor; [exact RC|]. constructor; [exact RU|constructor].
  - intros y [<-|[<-|[<-|[<-|[]]]]]; [exact SV|exact I|rewrite EC; exact I|exact SU].
Qed.

(** ** The visitor *)
Notation go := (go range be parse_float expr).
Definition grows (ps : bool -> string -> list piece) (f : @visitor exact -> Box.M S (@visitor exact)) : Prop := forall ns typ m s v' s',
  f (mk_visitor ns (stt typ) m) s = LOk (v', s') ->
  exists new, v' = mk_visitor (ns ++ new) (stt typ) m /\ Forall2 rep (ps m typ) new.

Lemma g_mfold {X} (f : X -> visitor -> Box.M S visitor) (ps : X -> bool -> string -> list piece) l :
  (forall x, In x l -> grows (ps x) (f x)) -> grows (fun m typ => flat_map (fun x => ps x m typ) l) (mfold f l).
Proof.
  induction l as [|x l IH]; intros H ns typ m s v' s' E; cbn [mfold] in E.
  - apply ret_ok in E as [-> _]. exists []. rewrite app_nil_r. split; [reflexivity|constructor].
  - apply bind_ok in E as (v1 & s1 & E1 & E). apply (H x (or_introl eq_refl)) in E1 as (n1 & -> & F1).
    apply IH in E as (n2 & -> & F2); [|intros; apply H; now right].
    exists (n1 ++ n2). rewrite app_assoc. split; [reflexivity|]. cbn [flat_map]. now apply Forall2_app.
Qed.
Lemma g_push (ps : bool -> string -> list piece) (k : state -> bool -> Box.M S tnode) :
  (forall typ m s t s', k (stt typ) m s = LOk (t, s') -> Forall2 rep (ps m typ) [t]) ->
  grows ps (fun v => mbind (k (v_state v) (v_math v)) (fun t => mret (push t v))).
Proof.
  intros H ns typ m s v' s' E. cbn [v_state v_math] in E. apply bind_ok in E as (t & s1 & E1 & E). apply ret_ok in E as [-> _].
  exists [t]. split; [reflexivity|]. eapply H; exact E1.
Qed.
Lemma one_solid e t : hx t e -> Forall2 rep [Solid e] [t].
Proof. intros H. constructor; [now apply hx_rep|constructor]. Qed.

Definition gz (n : node) : Prop := forall w, grows (fun m typ => pieces w m typ n) (go w n).
Lemma list_size l typ m s t s' : Forall gz l -> handle_list be (go true) l (stt typ) m s = LOk (t, s') ->
  hx t (row (flat_map (pieces true m typ) l)).
Proof.
  intros H E. unfold handle_list in E. apply bind_ok in E as (v & s1 & E1 & E).
  apply (g_mfold (go true) (fun x m typ => pieces true m typ x) l) in E1 as (new & -> & F2).
  - eapply hlist_row; [exact F2|exact E].
  - intros x I. rewrite Forall_forall in H. now apply H.
Qed.

Lemma gz_both n : gz n /\ Forall gz (list_children n).
Proof.
  assert (FC : forall l, Forall (fun n => gz n /\ Forall gz (list_children n)) l -> Forall gz l).
  { intros l H. eapply Forall_impl; [|exact H]. cbn. tauto. }
  assert (BAD : forall n0, (forall w v s, exists e, go w n0 v s = LPanic e) -> gz n0).
  { intros n0 H w ns typ m s v' s' E. destruct (H w (mk_visitor ns (stt typ) m) s) as (e & E2). rewrite E2 in E. discriminate E. }
  induction n using node_ind'; cbn [list_children]; split; auto; try (apply Forall_nil);
    try (apply BAD; intros [] v s0; eexists; reflexivity).
  - intros [] ns typ m s v' s' E; [discriminate E|]. apply ret_ok in E as [-> _]. exists []. rewrite app_nil_r.
    split; [reflexivity|constructor].
  - intros [] ns typ m s v' s' E; cbn [Mtex.go] in E.
    + apply (g_mfold (go true) (fun x m typ => pieces true m typ x) l) in E as (new & -> & F2).
      * exists new. split; [reflexivity|exact F2].
      * intros x I. apply FC in H. rewrite Forall_forall in H. now apply H.
    + apply ret_ok in E as [-> _]. exists []. rewrite app_nil_r. split; [reflexivity|constructor].
  - destruct nm as [[p name]|]; [|apply BAD; intros w v s; eexists; reflexivity].
    intros w ns typ m s v' s' E. cbn [Mtex.go] in E.
    apply bind_ok in E as (h & s1 & EH & E). apply mlift_ok in EH. destruct h as [h|]; [|discriminate E].
    apply (handler_cases _ FR) in EH.
    revert ns typ m s1 v' s' E.
    apply (g_push (fun m typ => pieces w m typ (NMacro (Some (p, name)) l))
             (fun st m => handle_macro range be parse_float expr (go true) h p name l st m)).
    intros typ m s0 t s' E. clear s.
    assert (Q : forall z, In z l -> Forall gz (list_children z)).
    { intros z I. rewrite Forall_forall in H. now destruct (H z I). }
    clear H FC BAD.
    assert (SN : forall h0, one_of ("\hspace" :: spacing_names) h0 = false -> one_of spacing_names h0 = false /\ String.eqb h0 "\hspace" = false).
    { intros h0. unfold one_of. cbn [existsb]. intros HH. apply orb_false_iff in HH. tauto. }
    destruct h; cbn [Mtex.handle_macro] in E.
    + cbn [SizeSpec.pieces]. rewrite EH. apply handle_space_ok in E. constructor; [exact E|constructor].
    + destruct EH as (E1 & E2 & E3). apply SN in E1 as [E1 E4]. cbn [SizeSpec.pieces]. rewrite E1, E4, E2.
      unfold one_of, frac_names in E3. cbn [existsb] in E3.
      repeat match type of E3 with _ || _ = false => apply orb_false_iff in E3 as [? E3] end.
      unfold one_of. cbn [existsb].
      repeat match goal with HH : String.eqb name _ = false |- _ => rewrite HH; clear HH end. cbn [orb].
      eapply symbol_ok. exact E.
    + subst name. unfold handle_custom_space in E. cbn [SizeSpec.pieces].
      change (one_of spacing_names "\hspace") with false. change (String.eqb "\hspace" "\hspace") with true. cbv iota.
      destruct l as [|[] l]; try discriminate E.
      match type of E with context [match ?x with [] => _ | _ => _ end] => destruct x as [|[] ?]; try discriminate E end.
      match type of E with context [parse_float ?x] => destruct (parse_float x) as [q|] eqn:PF; [|discriminate E] end.
      destruct MB as (_ & _ & _ & MN & _). apply MN in PF. subst q. apply space_ok in E as ->.
      constructor; [apply rep_kern|constructor].
    + destruct EH as [E1 E2]. apply SN in E1 as [E1 E4]. cbn [SizeSpec.pieces]. rewrite E1, E4, E2.
      unfold handle_function in E. apply bind_ok in E as (ts & s1 & E5 & E).
      change (set_type "rm" (stt typ)) with (stt "rm") in E5. apply chars_ok in E5. apply one_solid. eapply hlist_row; [exact E5|exact E].
    + subst name. unfold handle_frac in E. apply bind_ok in E as (th & s1 & E1 & E).
      destruct MB as (_ & _ & ML & _). apply ML in E1 as [-> TH]; [|reflexivity]. unfold handle_frac_args in E.
      destruct l as [|[| | |a l1 b1| | | | | | | |] [|[| | |a2 l2 b2| | | | | | | |] l]]; try discriminate E.
      apply bind_ok in E as (num & s2 & E2 & E). apply bind_ok in E as (den & s3 & E3 & E).
      apply list_size in E2; [|apply (Q _ (or_introl eq_refl))]. apply list_size in E3; [|apply (Q _ (or_intror (or_introl eq_refl)))].
      pose proof (genfrac_size _ _ _ _ _ _ _ _ _ _ _ _ E2 E3 TH (or_introl (conj eq_refl eq_refl)) E) as HX.
      now apply one_solid.
    + subst name. unfold handle_frac in E. apply bind_ok in E as (th & s1 & E1 & E).
      destruct MB as (_ & _ & ML & _). apply ML in E1 as [-> TH]; [|reflexivity]. unfold handle_frac_args in E.
      destruct l as [|[| | |a l1 b1| | | | | | | |] [|[| | |a2 l2 b2| | | | | | | |] l]]; try discriminate E.
      apply bind_ok in E as (num & s2 & E2 & E). apply bind_ok in E as (den & s3 & E3 & E).
      apply list_size in E2; [|apply (Q _ (or_introl eq_refl))]. apply list_size in E3; [|apply (Q _ (or_intror (or_introl eq_refl)))].
      pose proof (genfrac_size _ _ _ _ _ _ _ _ _ _ _ _ E2 E3 TH (or_introl (conj eq_refl eq_refl)) E) as HX.
      now apply one_solid.
    + subst name. unfold handle_frac in E. apply bind_ok in E as (th & s1 & E1 & E).
      destruct MB as (_ & _ & ML & _). apply ML in E1 as [-> TH]; [|reflexivity]. unfold handle_frac_args in E.
      destruct l as [|[| | |a l1 b1| | | | | | | |] [|[| | |a2 l2 b2| | | | | | | |] l]]; try discriminate E.
      apply bind_ok in E as (num & s2 & E2 & E). apply bind_ok in E as (den & s3 & E3 & E).
      apply list_size in E2; [|apply (Q _ (or_introl eq_refl))]. apply list_size in E3; [|apply (Q _ (or_intror (or_introl eq_refl)))].
      pose proof (genfrac_size _ _ _ _ _ _ _ _ _ _ _ _ E2 E3 TH (or_introl (conj eq_refl eq_refl)) E) as HX.
      now apply one_solid.
    + subst name. unfold handle_binom, handle_frac_args in E.
      destruct l as [|[| | |a l1 b1| | | | | | | |] [|[| | |a2 l2 b2| | | | | | | |] l]]; try discriminate E.
      apply bind_ok in E as (num & s2 & E2 & E). apply bind_ok in E as (den & s3 & E3 & E).
      apply list_size in E2; [|apply (Q _ (or_introl eq_refl))]. apply list_size in E3; [|apply (Q _ (or_intror (or_introl eq_refl)))].
      rewrite f0_exact in E.
      pose proof (genfrac_size _ _ _ _ _ _ _ _ _ _ _ _ E2 E3 (Qcle_refl _) (or_intror (conj eq_refl (conj eq_refl eq_refl))) E) as HX.
      now apply one_solid.
    + subst name. unfold handle_sqrt in E.
      destruct l as [|x1 [|x2 [|x3 l]]]; [discriminate E| | |destruct x1, x2; discriminate E].
      * destruct x1; try discriminate E. apply bind_ok in E as (body & s1 & E1 & E).
        apply list_size in E1; [|apply (Q _ (or_introl eq_refl))].
        pose proof (sqrt_size None None _ _ _ _ _ _ I E1 E) as HX. now apply one_solid.
      * destruct x1; try discriminate E.
        destruct x2; try (apply bind_ok in E as (? & ? & _ & E); discriminate E).
        apply bind_ok in E as (root & s1 & E1 & E). apply bind_ok in E as (body & s2 & E2 & E).
        apply list_size in E1; [|apply (Q _ (or_introl eq_refl))]. apply list_size in E2; [|apply (Q _ (or_intror (or_introl eq_refl)))].
        pose proof (sqrt_size (Some root) (Some _) _ _ _ _ _ _ E1 E2 E) as HX. now apply one_solid.
    + subst name. unfold handle_overline in E. destruct l as [|x1 l]; [discriminate E|]. destruct x1; try discriminate E.
      apply bind_ok in E as (body & s1 & E1 & E). apply list_size in E1; [|apply (Q _ (or_introl eq_refl))].
      pose proof (overline_size _ _ _ _ _ _ E1 E) as HX. now apply one_solid.
  - intros w ns typ m s v' s' E. cbn [Mtex.go] in E. apply bind_ok in E as (v1 & s1 & E1 & E).
    apply ret_ok in E as [-> _]. cbn [v_nodes v_state v_math] in *. change (set_type "it" (stt typ)) with (stt "it") in E1.
    apply (g_mfold (go false) (fun x m typ => pieces false m typ x) l) in E1 as (new & -> & F2).
    + exists new. cbn [v_nodes v_state]. split; [reflexivity|exact F2].
    + intros x I. apply FC in H. rewrite Forall_forall in H. now apply H.
  - intros w ns typ m s0 v' s' E. cbn [Mtex.go v_state v_math] in E. apply bind_ok in E as (ts & s1 & E1 & E).
    apply bind_ok in E as (t & s2 & E2 & E). apply ret_ok in E as [-> _]. exists [t]. split; [reflexivity|].
    apply chars_ok in E1. apply one_solid. eapply hlist_row; [exact E1|exact E2].
  - intros w ns typ m s0 v' s' E. cbn [Mtex.go] in E. change (rune_strings s) with (letters s) in E.
    apply (g_mfold (fun x v => mbind (handle_symbol range be expr x 0 (v_state v) (v_math v)) (fun t => mret (push t v)))
             (fun x m typ => symbol M expr size m typ x 0) (letters s)) in E as (new & -> & F2).
    + exists new. split; [reflexivity|exact F2].
    + intros x _. apply (g_push (fun m typ => symbol M expr size m typ x 0) (fun st m => handle_symbol range be expr x 0 st m)).
      intros * E0. eapply symbol_ok. exact E0.
  - intros w ns typ m s0 v' s' E. cbn [Mtex.go v_math v_state] in E. cbn [SizeSpec.pieces]. destruct m.
    + apply bind_ok in E as (h & s1 & EH & E). apply mlift_ok in EH. destruct h as [h|]; [|discriminate E].
      apply (handler_cases _ FR) in EH.
      apply bind_ok in E as (t & s2 & E2 & E). apply ret_ok in E as [-> _]. exists [t]. split; [reflexivity|].
      destruct h; cbn [handle_sym] in E2; try discriminate E2.
      * rewrite EH. apply handle_space_ok in E2. constructor; [exact E2|constructor].
      * destruct EH as (E1 & _ & _). unfold one_of in E1. cbn [existsb] in E1. apply orb_false_iff in E1 as [_ E1].
        unfold one_of at 1. rewrite E1. eapply symbol_ok. exact E2.
    + apply bind_ok in E as (c & s2 & E2 & E). apply ret_ok in E as [-> _]. exists [TChar c]. split; [reflexivity|].
      apply (char_rep _ _ size) in E2; [|reflexivity]. constructor; [exact E2|constructor].
Qed.

Lemma typeset_size l s t s' : typeset range be parse_float expr l (Fin size) (Fin dpi) s = LOk (t, s') ->
  hx t (size_of_expression M expr size dpi l).
Proof.
  unfold typeset. intros E. apply bind_ok in E as (v & s1 & E1 & E).
  destruct (gz_both (NList l)) as [G _]. change (mk_state (mk_font "default" "rm" (Fin size)) (Fin dpi)) with (stt "rm") in E1.
  apply (G true) in E1 as (new & -> & F2). eapply hlist_row; [exact F2|exact E].
Qed.

End Size.
