(** C76, C77: the picture of a typeset expression (PicSpec.v). *)
From Coq Require Import ZArith String Ascii List Bool Lia QArith Qround Qcanon Lqa.
From Verif Require Import Utf8 Token Ast SetTable Parser Symbols PropSymbols TreeSpec Arith Exact OrderLaws Box Ship ShipSpec ShipFacts ShipFacts2
  PackSpec PackFacts ExactFacts PropPack PropShip PropParse Mtex MtexTable MtexSpec FracSpec MtexFacts MtexFacts2 MtexFacts4 MtexFacts5 PropMtex ReadSpec ReadFacts
  PropRead RadFacts GeomSpec GeomFacts GeomFacts2 PropGeom SizeSpec SizeFacts PropSize PicSpec PicFacts PicFacts2 PicFacts3 RoomFacts.
From Verif Require Ttf TtfFacts TtfSpec TtfExact PropTtf PropFormula MtexSim MtexHoare.
Import ListNotations.
Local Open Scope string_scope.
Local Open Scope list_scope.
Local Open Scope Z_scope.

(** ** Pieces of the picture are the pieces of the size *)
Lemma root_fst M th e f i b : fst (root_shape M th e f i b) = Solid (radical M th e f (option_map fst i) (fst b)).
Proof. destruct i as [i|]; reflexivity. Qed.
Lemma shapes_pieces M expr size dpi n : (forall w m typ, map fst (shapes M expr size dpi w m typ n) = pieces M expr size dpi w m typ n) /\
  Forall (fun x => forall w m typ, map fst (shapes M expr size dpi w m typ x) = pieces M expr size dpi w m typ x) (list_children n).
Proof.
  set (P := fun x => forall w m typ, map fst (shapes M expr size dpi w m typ x) = pieces M expr size dpi w m typ x). change (P n /\ Forall P (list_children n)).
  assert (FC : forall l, Forall (fun n => P n /\ Forall P (list_children n)) l -> Forall P l).
  { intros l H. eapply Forall_impl; [|exact H]. cbn. tauto. }
  assert (FM : forall l w m typ, Forall P l -> map fst (flat_map (shapes M expr size dpi w m typ) l) = flat_map (pieces M expr size dpi w m typ) l).
  { intros l w m typ H. induction H as [|x l Hx _ IH]; [reflexivity|]. cbn [flat_map]. rewrite map_app. apply f_equal2; [apply Hx|exact IH]. }
  assert (SY : forall m typ s p, map fst (symbol_shape M expr size m typ s p) = symbol M expr size m typ s p).
  { intros. unfold symbol_shape, symbol. destruct (one_of _ _); [destruct (_ && _)|destruct (String.eqb s "."); [destruct (decimal_point _ _)|]]; reflexivity. }
  assert (LE : forall m typ s, map fst (map (letter_shape size m typ) s) = map (letter size m typ) s).
  { intros. rewrite map_map. reflexivity. }
  induction n using node_ind'; cbn [list_children]; split; auto; try (apply Forall_nil); try (intros w m typ; reflexivity).
  - intros [] m typ; [|reflexivity]. cbn [shapes pieces]. apply FM. auto.
  - destruct nm as [[p name]|]; [|intros w m typ; reflexivity]. intros w m typ. cbn [shapes pieces].
    assert (A : forall x, In x l -> map fst (flat_map (shapes M expr size dpi true m typ) (list_children x)) = flat_map (pieces M expr size dpi true m typ) (list_children x)).
    { intros x I. apply FM. rewrite Forall_forall in H. apply (H x I). }
    clear H.
    destruct (one_of spacing_names name); [reflexivity|].
    destruct (String.eqb name "\hspace").
    { destruct l as [|[] l]; try reflexivity.
      match goal with |- context [match ?x with [] => _ | _ => _ end] => destruct x as [|[] ?]; reflexivity end. }
    destruct (one_of FunctionNames_list (sdrop 1 name)). { unfold framed. cbn [map fst]. now rewrite LE. }
    assert (AR : forall a x b, In (NArg a x b) l -> row M (map fst (flat_map (shapes M expr size dpi true m typ) x)) = row M (flat_map (pieces M expr size dpi true m typ) x)).
    { intros a x b I. apply f_equal. exact (A _ I). }
    assert (AO : forall a x b, In (NOptArg a x b) l -> row M (map fst (flat_map (shapes M expr size dpi true m typ) x)) = row M (flat_map (pieces M expr size dpi true m typ) x)).
    { intros a x b I. apply f_equal. exact (A _ I). }
    destruct (one_of ["\frac"; "\tfrac"] name).
    { destruct l as [|[| | |a1 x1 b1| | | | | | | |] [|[| | |a2 x2 b2| | | | | | | |] l]]; try reflexivity.
      cbn [map fst frac_shape small box_of]. rewrite (AR a1 x1 b1), (AR a2 x2 b2) by (cbn; auto). reflexivity. }
    destruct (String.eqb name "\dfrac").
    { destruct l as [|[| | |a1 x1 b1| | | | | | | |] [|[| | |a2 x2 b2| | | | | | | |] l]]; try reflexivity.
      cbn [map fst frac_shape small box_of]. rewrite (AR a1 x1 b1), (AR a2 x2 b2) by (cbn; auto). reflexivity. }
    destruct (String.eqb name "\binom").
    { destruct l as [|[| | |a1 x1 b1| | | | | | | |] [|[| | |a2 x2 b2| | | | | | | |] l]]; try reflexivity.
      cbn [map fst binom_shape framed delim frac_shape small box_of]. rewrite (AR a1 x1 b1), (AR a2 x2 b2) by (cbn; auto). reflexivity. }
    destruct (String.eqb name "\sqrt").
    { destruct l as [|y1 [|y2 [|y3 l]]]; try reflexivity.
      - destruct y1; try reflexivity. cbn [map]. rewrite root_fst. cbn [option_map box_of fst]. rewrite (AR _ _ _ (or_introl eq_refl)). reflexivity.
      - destruct y1; try reflexivity; destruct y2; try reflexivity. cbn [map]. rewrite root_fst. cbn [option_map small box_of fst].
        rewrite (AO _ _ _ (or_introl eq_refl)), (AR _ _ _ (or_intror (or_introl eq_refl))). reflexivity.
      - destruct y1; try reflexivity; destruct y2; reflexivity. }
    destruct (String.eqb name "\overline").
    { destruct l as [|y1 l]; try reflexivity. destruct y1; try reflexivity. cbn [map fst over_shape box_of]. rewrite (AR _ _ _ (or_introl eq_refl)). reflexivity. }
    apply SY.
  - intros w m typ. cbn [shapes pieces]. apply FM. auto.
  - intros w m typ. cbn [shapes pieces framed map fst]. now rewrite LE.
  - intros w m typ. cbn [shapes pieces]. induction (letters s) as [|x xs IH]; [reflexivity|]. cbn [flat_map]. rewrite map_app. apply f_equal2; [apply SY|exact IH].
  - intros w m typ. cbn [shapes pieces]. destruct m; [|reflexivity]. destruct (one_of spacing_names s); [reflexivity|]. apply SY.
Qed.
Lemma expression_pieces M expr size dpi l : row M (map fst (flat_map (shapes M expr size dpi true false "rm") l)) = size_of_expression M expr size dpi l.
Proof. unfold size_of_expression. f_equal. exact (proj1 (shapes_pieces M expr size dpi (NList l)) true false "rm"). Qed.

Lemma scaled_one (t : @Box.tnode exact) : scaled (Fin 1) 0 t = t.
Proof.
  assert (E : forall w, fmul exact w (Fin 1) = w).
  { intros [q| | |]; try reflexivity. change (Fin (q * 1) = Fin q). apply f_equal. ring. }
  induction t as [b|c|c|b|gl|sz w|kk b sh gs l IH] using tnode_ind'; cbn [scaled]; rewrite !E, ?Z.add_0_r.
  - destruct b; reflexivity.
  - destruct c as [? ? ? ? ? ? []]; reflexivity.
  - destruct c as [? ? ? ? ? ? []]; reflexivity.
  - destruct b; reflexivity.
  - destruct gl; reflexivity.
  - reflexivity.
  - assert (EL : map (scaled (Fin 1) 0) l = l).
    { induction IH as [|y l Hy _ IHl]; [reflexivity|]. cbn [map]. now rewrite Hy, IHl. }
    rewrite EL. destruct b, gs; reflexivity.
Qed.

Lemma parsed_ships (S : Type) (be : @backend exact S) U range parse_float x size dpi s t err s' :
  mtex_parse U range be parse_float x size dpi s = Some (LOk ((t, err), s')) -> forall ox oy, exists t' st, ship_call ox oy t = LOk (t', st).
Proof.
  intros H. apply parse_inv in H as (l & _ & E). apply (C36_built_never_panics_generic exact_zero S be t).
  - eapply typeset_built; exact E.
  - unfold typeset in E. apply bind_ok in E as (v & s1 & _ & E). unfold hlist_of in E. apply bind_ok in E as (l' & s2 & _ & E).
    apply ret_ok in E as [-> _]. cbn [hpack list_of]. eauto 6.
Qed.

(** ** C76 *)
(** Shipping the box of an expression at ([ox], [oy]), its upper left corner, always
    works and draws exactly the picture of the expression. *)
Theorem C76_picture : forall (S : Type) (be : @backend exact S) range parse_float uni_letter (M : measures) expr l (size dpi ox oy : Qc) s t err s',
  fair range -> measured_by M size dpi be parse_float ->
  parse_expr uni_letter expr = Ok l ->
  mtex_parse uni_letter range be parse_float expr (Fin size) (Fin dpi) s = Some (LOk ((t, err), s')) ->
  exists t' st, ship_call (Fin ox) (Fin oy) t = LOk (t', st) /\
    s_out st = ink dpi 1 ox (oy + x_h (size_of_expression M expr size dpi l)) (picture_of M expr size dpi l).
Proof.
  intros * FR MB P E. destruct (parsed_ships _ _ _ _ _ _ _ _ _ _ _ _ E (Fin ox) (Fin oy)) as (t' & st & SC). exists t', st. split; [exact SC|].
  apply parse_inv in E as (l0 & P' & E). rewrite P in P'. assert (l0 = l) by (inversion P'; reflexivity). subst l0. clear P'.
  apply (typeset_hb range be parse_float M expr size dpi FR MB) in E as [HX (_ & L)].
  cbn [box_of fst] in HX. rewrite expression_pieces in HX. unfold picture_of.
  destruct HX as (b & gs & l' & -> & _ & _ & H & _). apply ship_ok_inv in SC as (_ & _ & ->). cbn [s_out].
  rewrite H. change (fadd exact (Fin oy) (Fin (x_h (size_of_expression M expr size dpi l)))) with (Fin (oy + x_h (size_of_expression M expr size dpi l))).
  specialize (L 1%Qc 0 ox (oy + x_h (size_of_expression M expr size dpi l))%Qc b 0%Qc 0%Qc eq_refl). rewrite scaled_one in L.
  rewrite f0_exact, L. f_equal; ring.
Qed.


(** ** Parts *)
Lemma lay_shift M dpi k l : forall X Y a x, ink dpi k X Y (lay M (a + x) l) = ink dpi k (X + k * a) Y (lay M x l).
Proof.
  induction l as [|[p f] l IH]; intros; [reflexivity|]. cbn [lay ink]. apply f_equal2.
  - apply f_equal3; [ring|ring|reflexivity].
  - rewrite <- IH. do 2 f_equal. ring.
Qed.
Lemma step_app M p l1 l2 : step M p (l1 ++ l2) = (step M p l1 + match l1 with [] => seam M [p] (map fst l2) | _ => 0 end)%Qc.
Proof.
  destruct l1 as [|[q g] l1]; [|cbn [app]; destruct p; cbn [step]; ring].
  cbn [app]. unfold seam. cbn [rev app]. destruct p, l2 as [|[[] ?] ?]; cbn [step map fst]; ring.
Qed.
Lemma width_cons M p f l : row_width M (map fst ((p, f) :: l)) = (step M p l + row_width M (map fst l))%Qc.
Proof. cbn [map fst]. destruct p; cbn [row_width step]; [|reflexivity]. destruct l as [|[[] ?] ?]; reflexivity. Qed.
Lemma lay_app M dpi k X Y l2 : forall l1 x, ink dpi k X Y (lay M x (l1 ++ l2)) =
  ink dpi k X Y (lay M x l1) ++ ink dpi k X Y (lay M (x + row_width M (map fst l1) + seam M (map fst l1) (map fst l2)) l2).
Proof.
  induction l1 as [|[p f] l1 IH]; intros x.
  - cbn [app lay ink map row_width seam rev]. do 2 f_equal. ring.
  - cbn [app lay ink]. rewrite <- app_assoc. apply f_equal. rewrite IH, width_cons, step_app.
    destruct l1 as [|q l1].
    + cbn [lay ink app map row_width]. do 2 f_equal. change (seam M [] (map fst l2)) with 0%Qc. cbn [fst]. ring.
    + apply f_equal2; [do 2 f_equal; ring|]. do 2 f_equal. cbn [map]. rewrite (seam_cons M (fst (p, f)) (fst q)). ring.
Qed.
Theorem C76_parts : forall (S : Type) (be : @backend exact S) range parse_float uni_letter (M : measures) expr l1 l2 (size dpi ox oy : Qc) s t err s',
  fair range -> measured_by M size dpi be parse_float ->
  parse_expr uni_letter expr = Ok (l1 ++ l2) ->
  mtex_parse uni_letter range be parse_float expr (Fin size) (Fin dpi) s = Some (LOk ((t, err), s')) ->
  let size_of := size_of_expression M expr size dpi in
  let inside := flat_map (pieces M expr size dpi true false "rm") in
  let base := (oy + qmax (x_h (size_of l1)) (x_h (size_of l2)))%Qc in
  exists t' st, ship_call (Fin ox) (Fin oy) t = LOk (t', st) /\
    s_out st = ink dpi 1 ox base (picture_of M expr size dpi l1) ++
               ink dpi 1 (ox + (x_w (size_of l1) + seam M (inside l1) (inside l2))) base (picture_of M expr size dpi l2).
Proof.
  intros * FR MB P E size_of inside base.
  destruct (C76_picture _ _ _ _ _ _ _ _ _ _ ox oy _ _ _ _ FR MB P E) as (t' & st & SC & OUT). exists t', st. split; [exact SC|]. rewrite OUT. clear OUT SC.
  assert (B : (oy + x_h (size_of_expression M expr size dpi (l1 ++ l2)))%Qc = base).
  { unfold base, size_of, size_of_expression. now rewrite flat_map_app, row_app. }
  rewrite B. unfold picture_of, box_of. cbn [snd]. rewrite flat_map_app, lay_app. apply f_equal.
  pose proof (proj1 (shapes_pieces M expr size dpi (NList l1)) true false "rm") as F1.
  pose proof (proj1 (shapes_pieces M expr size dpi (NList l2)) true false "rm") as F2. cbn [shapes pieces] in F1, F2.
  change (@map shape piece fst) with (@map (piece * figure) piece fst) in *. rewrite F1, F2.
  unfold size_of, size_of_expression, inside. cbn [row x_w].
  set (w := row_width _ _). set (g := seam _ _ _). replace (0 + w + g)%Qc with ((w + g) + 0)%Qc by ring. rewrite lay_shift. do 2 f_equal. ring.
Qed.

(** The same with TrueType fonts, for formulas. *)
Theorem C76_truetype : forall (Fnt : Type) U range pf (sf : @Ttf.sfnt exact Fnt) fnts x l (size dpi ox oy : Qc) s t err s',
  fair range -> (0 <= size)%Qc -> (0 <= dpi)%Qc -> PropFormula.usable pf sf fnts dpi size ->
  parse_expr U x = Ok l -> Forall (fun n => MtexHoare.is_math n = true) l -> PropFormula.served U range pf sf fnts s ->
  mtex_parse U range (Ttf.ttf_backend sf fnts) pf x (Fin size) (Fin dpi) s = Some (LOk ((t, err), s')) ->
  let M := PropFormula.font_measures pf sf fnts dpi in
  exists t' st, ship_call (Fin ox) (Fin oy) t = LOk (t', st) /\
    s_out st = ink dpi 1 ox (oy + x_h (size_of_expression M x size dpi l)) (picture_of M x size dpi l).
Proof.
  intros * FR SP DP US P OM SV E M.
  destruct (PropFormula.formula_sim sf fnts U range pf x (Fin size) (Fin dpi) s (ex_intro _ l (conj P OM)) (PropFormula.served_related _ _ _ _ _ _ SV)) as [H _].
  rewrite E in H. cbn [PropFormula.seen_of] in H.
  destruct (mtex_parse U range (PropFormula.fresh_backend sf fnts) pf x (Fin size) (Fin dpi) tt) as [[[[t' err'] []]|e]|] eqn:E'; try discriminate H.
  cbn [PropFormula.seen_of] in H. assert (Q : t = t') by (inversion H; reflexivity). subst t'.
  eapply C76_picture; [exact FR|apply PropFormula.fonts_measured; eassumption|exact P|exact E'].
Qed.

(** ** C77 *)
(** Nothing is drawn above the top of the picture, and nothing below its bottom,
    except that under each bar (\overline, \sqrt) the drawing may be half a pixel
    lower. *)
Lemma clearance_pos size dpi : (0 <= size)%Qc -> (0 <= dpi)%Qc -> (0 <= clearance size dpi)%Qc.
Proof. intros A B. unfold clearance, Qcdiv. apply mul_pos; [now apply mul_pos|discriminate]. Qed.
Lemma picture_room M expr size dpi l ox oy : regular M size -> (0 <= size)%Qc -> (0 <= dpi)%Qc ->
  let e := size_of_expression M expr size dpi l in
  Forall (stays M oy (oy + (x_h e + x_d e) + Q2Qc (Z.of_nat (bars_of l) # 2))) (ink dpi 1 ox (oy + x_h e) (picture_of M expr size dpi l)).
Proof.
  intros R SP DP e. destruct (picture_fits M size dpi R expr (clearance_pos _ _ SP DP) l) as [_ F0].
  pose proof (ink_traces _ _ _ _ _ _ (F0 1%Qc ox (oy + x_h e)%Qc (ltac:(discriminate)))) as F. clear F0.
  rewrite expression_pieces in F. fold e in F. eapply Forall_impl; [|exact F]. intros ev. unfold half. apply stays_mono.
  - replace (oy + x_h e - 1 * x_h e)%Qc with oy by ring. apply Qcle_refl.
  - replace (oy + x_h e + 1 * x_d e)%Qc with (oy + (x_h e + x_d e))%Qc by ring. apply Qcle_refl.
Qed.
Theorem C77_room : forall (S : Type) (be : @backend exact S) range parse_float uni_letter (M : measures) expr l (size dpi ox oy : Qc) s t err s',
  fair range -> measured_by M size dpi be parse_float -> regular M size -> (0 <= size)%Qc -> (0 <= dpi)%Qc ->
  parse_expr uni_letter expr = Ok l ->
  mtex_parse uni_letter range be parse_float expr (Fin size) (Fin dpi) s = Some (LOk ((t, err), s')) ->
  exists w h d t' st, sized t (mk_ext w h d) /\ ship_call (Fin ox) (Fin oy) t = LOk (t', st) /\
    Forall (stays M oy (oy + (h + d) + Q2Qc (Z.of_nat (bars_of l) # 2))) (s_out st).
Proof.
  intros * FR MB R SP DP P E. pose proof (C64_size _ _ _ _ _ _ _ _ _ _ _ _ _ _ FR MB P E) as SZ.
  destruct (C76_picture _ _ _ _ _ _ _ _ _ _ ox oy _ _ _ _ FR MB P E) as (t' & st & SC & OUT).
  pose proof (picture_room M expr size dpi l ox oy R SP DP) as F. cbv zeta in F. rewrite <- OUT in F.
  destruct (size_of_expression M expr size dpi l) as [w h d]. exists w, h, d, t', st. auto.
Qed.
(** In particular the picture is complete if there are no bars. *)
Corollary C77_no_bars : forall (S : Type) (be : @backend exact S) range parse_float uni_letter (M : measures) expr l (size dpi ox oy : Qc) s t err s',
  fair range -> measured_by M size dpi be parse_float -> regular M size -> (0 <= size)%Qc -> (0 <= dpi)%Qc ->
  parse_expr uni_letter expr = Ok l -> bars_of l = O ->
  mtex_parse uni_letter range be parse_float expr (Fin size) (Fin dpi) s = Some (LOk ((t, err), s')) ->
  exists w h d t' st, sized t (mk_ext w h d) /\ ship_call (Fin ox) (Fin oy) t = LOk (t', st) /\
    Forall (stays M oy (oy + (h + d))) (s_out st).
Proof.
  intros * FR MB R SP DP P B E. destruct (C77_room _ _ _ _ _ _ _ _ _ _ ox oy _ _ _ _ FR MB R SP DP P E) as (w & h & d & t' & st & SZ & SC & F).
  exists w, h, d, t', st. split; [exact SZ|]. split; [exact SC|]. rewrite B in F.
  replace (oy + (h + d))%Qc with (oy + (h + d) + Q2Qc (Z.of_nat 0 # 2))%Qc; [exact F|].
  replace (Q2Qc (Z.of_nat 0 # 2)) with 0%Qc by (apply Qc_is_canon; reflexivity). ring.
Qed.

(** With TrueType fonts that have the delimiters. *)
Definition has_delimiters {Fnt} (sf : @Ttf.sfnt exact Fnt) fnts (dpi size : Qc) : Prop :=
  forall c typ, In c ["("; ")"; "\__sqrt__"] -> In typ ["rm"; "it"] ->
  exists m h, fst (Ttf.metrics_of sf fnts c (face size typ) (Fin dpi) true (Ttf.new_ttf Ttf.new_canvas)) = LOk m /\ m_height m = Fin h /\ (0 < h)%Qc.
Lemma fonts_regular {Fnt} pf (sf : @Ttf.sfnt exact Fnt) fnts (dpi size : Qc) : (0 <= size)%Qc -> (0 <= dpi)%Qc -> has_delimiters sf fnts dpi size ->
  regular (PropFormula.font_measures pf sf fnts dpi) size.
Proof.
  intros SP DP HD. split; [|split; [|split]].
  - intros. split; reflexivity.
  - intros s [nm ty z'] z k F KP. cbn [f_size] in F. subst z'. unfold resize. cbn [f_name f_type f_size].
    change (fmul exact (Fin z) (Fin k)) with (Fin (z * k)). unfold PropFormula.font_measures. cbn [up down]. unfold PropFormula.ask_metrics. rewrite !PropTtf.metrics_fresh.
    destruct (TtfExact.glyph_val_nums sf fnts s nm ty true) as [(n & g & ps & nm' & rn & idx & off & Q)|(e & Q)].
    + rewrite !Q, !PropTtf.key_fin_refl. cbn [Ttf.v_met TtfExact.nums_metrics m_iceberg m_height]. rewrite !PropFormula.value_fin. split; ring.
    + rewrite !Q. unfold Ttf.met0. cbn [m_iceberg m_height]. change (PropFormula.value f0) with 0%Qc. split; ring.
  - intros typ _. unfold PropFormula.font_measures. cbn [line]. rewrite (PropFormula.under_fin dpi (face size typ) size eq_refl), PropFormula.value_fin.
    unfold Qcdiv. repeat apply mul_pos; try assumption; discriminate.
  - intros c typ C T. destruct (HD c typ C T) as (m & h & E & EH & HP). unfold PropFormula.font_measures. cbn [up down]. unfold PropFormula.ask_metrics.
    rewrite E, EH. rewrite PropFormula.value_fin. match goal with |- (0 < ?a + (_ - _))%Qc => replace (a + (h - a))%Qc with h by ring end. exact HP.
Qed.
Theorem C77_truetype : forall (Fnt : Type) U range pf (sf : @Ttf.sfnt exact Fnt) fnts x l (size dpi ox oy : Qc) s t err s',
  fair range -> (0 <= size)%Qc -> (0 <= dpi)%Qc -> PropFormula.usable pf sf fnts dpi size -> has_delimiters sf fnts dpi size ->
  parse_expr U x = Ok l -> Forall (fun n => MtexHoare.is_math n = true) l -> PropFormula.served U range pf sf fnts s ->
  mtex_parse U range (Ttf.ttf_backend sf fnts) pf x (Fin size) (Fin dpi) s = Some (LOk ((t, err), s')) ->
  exists w h d t' st, sized t (mk_ext w h d) /\ ship_call (Fin ox) (Fin oy) t = LOk (t', st) /\
    Forall (stays (PropFormula.font_measures pf sf fnts dpi) oy (oy + (h + d) + Q2Qc (Z.of_nat (bars_of l) # 2))) (s_out st).
Proof.
  intros * FR SP DP US HD P OM SV E.
  pose proof (PropFormula.formula_sized _ _ _ _ _ _ _ _ _ _ _ _ _ FR SP DP US P OM SV E) as SZ.
  destruct (C76_truetype _ _ _ _ _ _ _ _ _ _ ox oy _ _ _ _ FR SP DP US P OM SV E) as (t' & st & SC & OUT).
  pose proof (picture_room _ x size dpi l ox oy (fonts_regular pf sf fnts dpi size SP DP HD) SP DP) as F. cbv zeta in F. rewrite <- OUT in F.
  destruct (size_of_expression _ x size dpi l) as [w h d]. exists w, h, d, t', st. auto.
Qed.

(** ** Cases *)
(** Drawn by the program, and as specified: symbols with position and font size,
    lines with their corners, in hundredths. *)
Definition seen_calls (l : list (@Ship.event exact)) : list (string * list Z) :=
  map (fun e => match e with
    | EGlyph x y f c _ => (c, [cents x; cents y; cents (f_size f)])
    | ERect x1 y1 x2 y2 => ("rule", [cents x1; cents y1; cents x2; cents y2]) end) l.
Definition drawn_calls (expr : string) : option (list (string * list Z)) :=
  match mtex_parse ascii_only id_range squares two expr (xofZ 20) (xofZ 60) tt with
  | Some (LOk (t, None, _)) =>
    match ship_call (Fin (Q2Qc 3)) (Fin (Q2Qc 5)) t with LOk (_, st) => Some (seen_calls (s_out st)) | _ => None end
  | _ => None
  end.
Definition picture_calls (expr : string) : option (list (string * list Z)) :=
  match parse_expr ascii_only expr with
  | Ok l => Some (seen_calls (ink (Q2Qc 60) 1 (Q2Qc 3) (Q2Qc 5 + x_h (size_of_expression square_measures expr (Q2Qc 20) (Q2Qc 60) l))
                    (picture_of square_measures expr (Q2Qc 20) (Q2Qc 60) l)))
  | _ => None
  end.
Definition c76_cases : list string := "$\sqrt[3]{\overline{x}+\frac{1}{22}}-\dfrac{\sqrt{2}}{\binom{n}{kk}}$" :: c64_cases.
Example C76_case : map drawn_calls c76_cases = map picture_calls c76_cases /\
  drawn_calls "a$\frac{1}{22}$" =
  Some [("a", [300; 2800; 2000]); ("1", [3000; 1550; 1400]); ("rule", [2300; 2500; 5100; 2700]);
        ("2", [2300; 3950; 1400]); ("2", [3700; 3950; 1400])].
Proof. split; vm_compute; reflexivity. Qed.

(** The font of squares is regular; the toy TrueType fonts have delimiters. *)
Example squares_regular : forall size, (0 < size)%Qc -> regular square_measures size.
Proof.
  intros size SP. split; [|split; [|split]].
  - intros. split; reflexivity.
  - intros s f z k F K. unfold square_measures, resize, pts. cbn [up down f_size]. rewrite F. cbn [fmul exact xmul]. split; ring.
  - intros typ _. unfold square_measures, pts, face. cbn [line f_size]. apply mul_pos; [now apply Qclt_le_weak|discriminate].
  - intros c typ _ _. unfold square_measures, pts, face. cbn [up down f_size].
    replace (size * Q2Qc (3 # 4) + size * Q2Qc (1 # 4))%Qc with size; [exact SP|].
    rewrite <- Qcmult_plus_distr_r. replace (Q2Qc (3 # 4) + Q2Qc (1 # 4))%Qc with 1%Qc by (apply Qc_is_canon; reflexivity). ring.
Qed.
Example flat_delimiters : has_delimiters PropFormula.flat PropTtf.toy_fonts (Q2Qc 72) (Q2Qc 10).
Proof.
  intros c typ C T. exists (PropFormula.ask_metrics PropFormula.flat PropTtf.toy_fonts (Q2Qc 72) c (face (Q2Qc 10) typ)), (Q2Qc 10).
  unfold PropFormula.ask_metrics. rewrite PropTtf.metrics_fresh.
  destruct (Ttf.glyph_val PropFormula.flat PropTtf.toy_fonts c (face (Q2Qc 10) typ) (Fin (Q2Qc 72)) true) as [v|e] eqn:E.
  - unfold face. rewrite PropTtf.key_fin_refl. split; [reflexivity|]. split; [|reflexivity]. apply (PropFormula.flat_height _ _ _ _ _ E).
  - exfalso. assert (X : match Ttf.glyph_val PropFormula.flat PropTtf.toy_fonts c (face (Q2Qc 10) typ) (Fin (Q2Qc 72)) true with LOk _ => true | LPanic _ => false end = true).
    { clear E. cbn [In] in C, T. destruct C as [<-|[<-|[<-|[]]]]; destruct T as [<-|[<-|[]]]; vm_compute; reflexivity. }
    rewrite E in X. discriminate X.
Qed.
(** How far down the drawing reaches (in hundredths) and the size: one bar, shifted
    by rounding (the bound is attained); no bars. *)
Definition lowest (expr : string) : option (list Z) :=
  match mtex_parse ascii_only id_range squares two expr (xofZ 22) (xofZ 60) tt with
  | Some (LOk (t, None, _)) =>
    match ship_call (Fin 0%Qc) (Fin 0%Qc) t with
    | LOk (_, st) =>
      Some [fold_right Z.max 0 (map (fun e => match e with
              | EGlyph _ y f c _ => cents (fadd exact y (Fin (down square_measures c f true)))
              | ERect _ _ _ y2 => cents y2 end) (s_out st)); cents (fadd exact (t_height t) (t_depth t))]
    | _ => None
    end
  | _ => None
  end.
Example C77_case : map lowest ["$\overline{x}$"; "$\dfrac{1}{22}$"; "$\sqrt{\overline{\overline{x}}}$"; "$\frac{1}{\binom{2}{3}}$"] =
  [Some [3020; 2970]; Some [5500; 5500]; Some [5060; 4950]; Some [5412; 5412]].
Proof. vm_compute. reflexivity. Qed.
Print Assumptions C76_picture. Print Assumptions C76_parts. Print Assumptions C77_room. Print Assumptions C77_truetype.
