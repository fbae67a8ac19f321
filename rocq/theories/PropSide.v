(** C83, C84: left and right of a typeset expression, and overlapping parts
    (SideSpec.v). *)
From Coq Require Import ZArith String Ascii List Bool Lia QArith Qround Qcanon Lqa.
From Verif Require Import Utf8 Token Ast SetTable Parser Symbols PropSymbols TreeSpec Arith Exact OrderLaws Box Ship ShipSpec
  PropParse Mtex MtexFacts MtexSpec FracSpec PropMtex ReadSpec GeomSpec GeomFacts PropGeom SizeSpec SizeFacts PropSize PicSpec PicFacts RoomFacts PropPic
  SideSpec SideFacts SideFacts2.
From Verif Require Ttf TtfFacts TtfSpec TtfExact PropTtf PropFormula MtexHoare.
Import ListNotations.
Local Open Scope string_scope.
Local Open Scope list_scope.
Local Open Scope Z_scope.

Lemma picture_sides M expr size dpi l ox oy : regular M size -> forward_fonts M size -> (0 <= size)%Qc -> (0 <= dpi)%Qc -> Forall (forward M) l ->
  let e := size_of_expression M expr size dpi l in
  Forall (within M ox (ox + x_w e)) (ink dpi 1 ox (oy + x_h e) (picture_of M expr size dpi l)).
Proof.
  intros R FW SP DP L e. pose proof (picture_spans M size dpi R FW expr l L) as H. rewrite expression_pieces in H. fold e in H.
  specialize (H 1%Qc ox (oy + x_h e)%Qc ltac:(discriminate)). replace (ox + x_w e)%Qc with (ox + 1 * x_w e)%Qc by ring. exact H.
Qed.

(** ** C83: nothing is drawn left of the box or right of it *)
Theorem C83_sides : forall (S : Type) (be : @backend exact S) range parse_float uni_letter (M : measures) expr l (size dpi ox oy : Qc) s t err s',
  fair range -> measured_by M size dpi be parse_float -> regular M size -> forward_fonts M size -> (0 <= size)%Qc -> (0 <= dpi)%Qc ->
  parse_expr uni_letter expr = Ok l -> Forall (forward M) l ->
  mtex_parse uni_letter range be parse_float expr (Fin size) (Fin dpi) s = Some (LOk ((t, err), s')) ->
  exists w h d t' st, sized t (mk_ext w h d) /\ ship_call (Fin ox) (Fin oy) t = LOk (t', st) /\
    Forall (within M ox (ox + w)) (s_out st).
Proof.
  intros * FR MB R FW SP DP P L E. pose proof (C64_size _ _ _ _ _ _ _ _ _ _ _ _ _ _ FR MB P E) as SZ.
  destruct (C76_picture _ _ _ _ _ _ _ _ _ _ ox oy _ _ _ _ FR MB P E) as (t' & st & SC & OUT).
  pose proof (picture_sides M expr size dpi l ox oy R FW SP DP L) as F. cbv zeta in F. rewrite <- OUT in F.
  destruct (size_of_expression M expr size dpi l) as [w h d]. exists w, h, d, t', st. auto.
Qed.

(** TrueType fonts: no negative advances, and kerning that moves no glyph back past
    the beginning or the end of its neighbour. *)
Definition no_negative_advance {Fnt} (sf : @Ttf.sfnt exact Fnt) : Prop := forall f i p a, Ttf.sf_advance sf f i p = Some a -> 0 <= a.
Definition mild_kerning (M : measures) (size : Qc) : Prop := forall s f s' f', f_size f = Fin size -> f_size f' = Fin size ->
  (0 <= adv M s f true + pair M f s f' s')%Qc /\ (0 <= adv M s' f' true + pair M f s f' s')%Qc.
Lemma advance_pos {Fnt} pf (sf : @Ttf.sfnt exact Fnt) fnts (dpi size : Qc) s f : (0 <= size)%Qc -> no_negative_advance sf -> f_size f = Fin size ->
  (0 <= adv (PropFormula.font_measures pf sf fnts dpi) s f true)%Qc.
Proof.
  intros SP NA F. destruct f as [nm ty z']. cbn [f_size] in F. subst z'.
  unfold PropFormula.font_measures. cbn [adv]. unfold PropFormula.ask_metrics. rewrite PropTtf.metrics_fresh.
  destruct (Ttf.glyph_val sf fnts s (mk_font nm ty (Fin size)) (Fin dpi) true) as [v|e] eqn:E; [|apply Qcle_refl].
  rewrite PropTtf.key_fin_refl. unfold Ttf.glyph_val in E. cbn [f_size] in E.
  destruct (Ttf.get_glyph _ _ _ _ _) as [[[g rn] sl]|]; cbn [Ttf.lbind] in E; [|discriminate E].
  destruct (Ttf.sf_name sf g) as [ps|]; cbn [Ttf.need Ttf.lbind] in E; [|discriminate E].
  destruct (Ttf.sf_index sf g rn) as [idx|]; cbn [Ttf.need Ttf.lbind] in E; [|discriminate E].
  destruct (Ttf.sf_gname sf g idx) as [name|]; cbn [Ttf.need Ttf.lbind] in E; [|discriminate E].
  destruct (Ttf.sf_load sf g idx _); cbn [Ttf.need Ttf.lbind] in E; [|discriminate E].
  destruct (Ttf.sf_advance sf g idx _) as [a|] eqn:EA; cbn [Ttf.need Ttf.lbind] in E; [|discriminate E].
  destruct (Ttf.sf_load sf g idx _); cbn [Ttf.need Ttf.lbind] in E; [|discriminate E].
  destruct (Ttf.sf_bounds sf g idx _) as [[[[x0 y0] x1] y1]|]; cbn [Ttf.need Ttf.lbind] in E; [|discriminate E].
  apply NA in EA.
  match type of E with LOk ?x = LOk v => assert (V : v = x) by (inversion E; reflexivity) end.
  subst v. cbn [Ttf.v_met m_adv]. clear E.
  rewrite !TtfExact.ofZ_fin. rewrite TtfExact.div_fin' by lia. rewrite TtfExact.mul_fin. rewrite TtfExact.div_fin' by lia. rewrite PropFormula.value_fin.
  assert (AP : (0 <= TtfExact.zq a)%Qc).
  { unfold Qcle, TtfExact.zq. cbn [this Q2Qc]. rewrite !Qred_correct. change 0%Q with (inject_Z 0). rewrite <- Zle_Qle. exact EA. }
  unfold Qcdiv. repeat apply mul_pos; try assumption; discriminate.
Qed.
Lemma fonts_forward {Fnt} pf (sf : @Ttf.sfnt exact Fnt) fnts (dpi size : Qc) : (0 <= size)%Qc -> no_negative_advance sf ->
  mild_kerning (PropFormula.font_measures pf sf fnts dpi) size -> forward_fonts (PropFormula.font_measures pf sf fnts dpi) size.
Proof.
  intros SP NA MK. split; [reflexivity|]. split; [|split].
  - intros s [nm ty z'] z k F KP. cbn [f_size] in F. subst z'. unfold resize. cbn [f_name f_type f_size].
    change (fmul exact (Fin z) (Fin k)) with (Fin (z * k)). unfold PropFormula.font_measures. cbn [adv]. unfold PropFormula.ask_metrics. rewrite !PropTtf.metrics_fresh.
    destruct (TtfExact.glyph_val_nums sf fnts s nm ty true) as [(n & g & ps & nm' & rn & idx & off & Q)|(e & Q)].
    + rewrite !Q, !PropTtf.key_fin_refl. cbn [Ttf.v_met TtfExact.nums_metrics m_adv]. rewrite !PropFormula.value_fin. ring.
    + rewrite !Q. unfold Ttf.met0. cbn [m_adv]. change (PropFormula.value f0) with 0%Qc. ring.
  - intros s f F. now apply (advance_pos pf sf fnts dpi size).
  - exact MK.
Qed.
Theorem C83_truetype : forall (Fnt : Type) U range pf (sf : @Ttf.sfnt exact Fnt) fnts x l (size dpi ox oy : Qc) s t err s',
  let M := PropFormula.font_measures pf sf fnts dpi in
  fair range -> (0 <= size)%Qc -> (0 <= dpi)%Qc -> PropFormula.usable pf sf fnts dpi size -> has_delimiters sf fnts dpi size ->
  no_negative_advance sf -> mild_kerning M size ->
  parse_expr U x = Ok l -> Forall (fun n => MtexHoare.is_math n = true) l -> Forall (forward M) l -> PropFormula.served U range pf sf fnts s ->
  mtex_parse U range (Ttf.ttf_backend sf fnts) pf x (Fin size) (Fin dpi) s = Some (LOk ((t, err), s')) ->
  exists w h d t' st, sized t (mk_ext w h d) /\ ship_call (Fin ox) (Fin oy) t = LOk (t', st) /\ Forall (within M ox (ox + w)) (s_out st).
Proof.
  intros * FR SP DP US HD NA MK P OM FWL SV E.
  pose proof (PropFormula.formula_sized _ _ _ _ _ _ _ _ _ _ _ _ _ FR SP DP US P OM SV E) as SZ.
  destruct (C76_truetype _ _ _ _ _ _ _ _ _ _ ox oy _ _ _ _ FR SP DP US P OM SV E) as (t' & st & SC & OUT).
  pose proof (picture_sides _ x size dpi l ox oy (fonts_regular pf sf fnts dpi size SP DP HD) (fonts_forward pf sf fnts dpi size SP NA MK) SP DP FWL) as F.
  cbv zeta in F. rewrite <- OUT in F.
  destruct (size_of_expression _ x size dpi l) as [w h d]. exists w, h, d, t', st. auto.
Qed.

(** ** C84: no two parts overlap *)
Theorem C84_apart : forall (S : Type) (be : @backend exact S) range parse_float uni_letter (M : measures) expr l (size dpi ox oy : Qc) s t err s',
  fair range -> measured_by M size dpi be parse_float -> regular M size -> forward_fonts M size -> loose_fonts M size -> (0 <= size)%Qc -> (0 <= dpi)%Qc ->
  parse_expr uni_letter expr = Ok l -> Forall (forward M) l -> bars_of l = O ->
  mtex_parse uni_letter range be parse_float expr (Fin size) (Fin dpi) s = Some (LOk ((t, err), s')) ->
  exists t' st, ship_call (Fin ox) (Fin oy) t = LOk (t', st) /\ any_two (apart M) (s_out st).
Proof.
  intros * FR MB R FW LO SP DP P L B E.
  destruct (C76_picture _ _ _ _ _ _ _ _ _ _ ox oy _ _ _ _ FR MB P E) as (t' & st & SC & OUT). exists t', st. split; [exact SC|].
  rewrite OUT. apply (picture_apart M size dpi R FW LO expr l L B). discriminate.
Qed.
Definition no_negative_kerning {Fnt} (sf : @Ttf.sfnt exact Fnt) : Prop := forall f i j p k, Ttf.sf_kern sf f i j p = Ttf.KernIs k -> 0 <= k.
Lemma fonts_loose {Fnt} pf (sf : @Ttf.sfnt exact Fnt) fnts (dpi size : Qc) : no_negative_kerning sf -> loose_fonts (PropFormula.font_measures pf sf fnts dpi) size.
Proof.
  intros NK s1 f1 s2 f2 _ _. unfold PropFormula.font_measures. cbn [pair]. unfold PropFormula.ask_kern, Ttf.kern. destruct (_ && _); [|apply Qcle_refl].
  unfold Ttf.cbind. destruct (Ttf.get_info sf fnts s1 f1 (Fin dpi) true _) as [[v1|e] t1]; [|apply Qcle_refl].
  destruct (Ttf.get_info sf fnts s2 f2 (Fin dpi) true t1) as [[v2|e] t2]; [|apply Qcle_refl]. cbn [Ttf.cret fst].
  destruct (Ttf.v_font v1) as [f|]; cbn [Ttf.need Ttf.lbind]; [|apply Qcle_refl].
  destruct (Ttf.sf_kern sf f _ _ _) as [k| |] eqn:E; [|apply Qcle_refl|apply Qcle_refl].
  apply NK in E. rewrite TtfExact.ofZ_fin, TtfExact.div_fin by lia. rewrite PropFormula.value_fin.
  unfold Qcdiv. apply mul_pos; [|discriminate]. unfold Qcle, TtfExact.zq. cbn [this Q2Qc]. rewrite !Qred_correct.
  change 0%Q with (inject_Z 0). rewrite <- Zle_Qle. exact E.
Qed.
Lemma loose_mild {Fnt} pf (sf : @Ttf.sfnt exact Fnt) fnts (dpi size : Qc) : (0 <= size)%Qc -> no_negative_advance sf ->
  loose_fonts (PropFormula.font_measures pf sf fnts dpi) size -> mild_kerning (PropFormula.font_measures pf sf fnts dpi) size.
Proof.
  intros SP NA LO s f s' f' F F'. pose proof (LO s f s' f' F F'). pose proof (advance_pos pf sf fnts dpi size s f SP NA F).
  pose proof (advance_pos pf sf fnts dpi size s' f' SP NA F'). split; ql.
Qed.
Theorem C84_truetype : forall (Fnt : Type) U range pf (sf : @Ttf.sfnt exact Fnt) fnts x l (size dpi ox oy : Qc) s t err s',
  let M := PropFormula.font_measures pf sf fnts dpi in
  fair range -> (0 <= size)%Qc -> (0 <= dpi)%Qc -> PropFormula.usable pf sf fnts dpi size -> has_delimiters sf fnts dpi size ->
  no_negative_advance sf -> no_negative_kerning sf ->
  parse_expr U x = Ok l -> Forall (fun n => MtexHoare.is_math n = true) l -> Forall (forward M) l -> bars_of l = O -> PropFormula.served U range pf sf fnts s ->
  mtex_parse U range (Ttf.ttf_backend sf fnts) pf x (Fin size) (Fin dpi) s = Some (LOk ((t, err), s')) ->
  exists t' st, ship_call (Fin ox) (Fin oy) t = LOk (t', st) /\ any_two (apart M) (s_out st).
Proof.
  intros * FR SP DP US HD NA NK P OM FWL B SV E.
  destruct (C76_truetype _ _ _ _ _ _ _ _ _ _ ox oy _ _ _ _ FR SP DP US P OM SV E) as (t' & st & SC & OUT). exists t', st. split; [exact SC|].
  rewrite OUT. pose proof (fonts_loose pf sf fnts dpi size NK) as LO.
  apply (picture_apart M size dpi (fonts_regular pf sf fnts dpi size SP DP HD)
    (fonts_forward pf sf fnts dpi size SP NA (loose_mild pf sf fnts dpi size SP NA LO)) LO x l FWL B). discriminate.
Qed.

(** ** Cases *)
Example squares_forward : forall size, (0 < size)%Qc -> forward_fonts square_measures size /\ loose_fonts square_measures size.
Proof.
  intros size SP. pose proof (Qclt_le_weak _ _ SP) as SL. split; [|intros s f s' f' F F'; apply Qcle_refl]. split; [reflexivity|]. split; [|split].
  - intros s f z k F K. unfold square_measures, resize, pts. cbn [adv f_size]. rewrite F. cbn [fmul exact xmul]. ring.
  - intros s f F. unfold square_measures, pts. cbn [adv]. now rewrite F.
  - intros s f s' f' F F'. unfold square_measures, pts. cbn [adv pair]. rewrite F, F', Qcplus_0_r. now split.
Qed.
Example flat_forward : no_negative_kerning PropFormula.flat /\ no_negative_advance PropFormula.flat.
Proof. split; [intros f i j p k E; discriminate E|]. intros f i p a E. inversion E. apply Z.abs_nonneg. Qed.

(** Widest extent of the drawing (left, right) and the width, in hundredths. *)
Definition sides (expr : string) : option (list Z) :=
  match mtex_parse ascii_only id_range squares two expr (xofZ 20) (xofZ 60) tt with
  | Some (LOk (t, None, _)) =>
    match ship_call (Fin 0%Qc) (Fin 0%Qc) t with
    | LOk (_, st) =>
      Some [fold_right Z.min 0 (map (fun e => match e with EGlyph x _ _ _ _ => cents x | ERect x _ _ _ => cents x end) (s_out st));
            fold_right Z.max 0 (map (fun e => match e with
              | EGlyph x _ f c _ => cents (fadd exact x (Fin (adv square_measures c f true)))
              | ERect _ _ x _ => cents x end) (s_out st)); cents (t_width t)]
    | _ => None
    end
  | _ => None
  end.
(** Everything stays inside; with an index narrower than half of its root sign, and
    with negative space at the end, it does not. *)
Example C83_case : map sides ["$a+\frac{b}{\sqrt{c}}$"; "x $\binom{n}{k}\hspace{2}\overline{a.}\quad1.5$"; "$\sqrt[3]{x}$"; "$a\!$"] =
  [Some [0; 8860; 9260]; Some [0; 29800; 29800]; Some [-520; 5280; 5280]; Some [0; 2000; 1667]].
Proof. vm_compute. reflexivity. Qed.
Example C83_forward : exists l, parse_expr ascii_only "x $\binom{n}{k}\hspace{2}\overline{a.}\quad1.5$" = Ok l /\ Forall (forward square_measures) l /\
  (exists l', parse_expr ascii_only "$\sqrt[3]{x}$" = Ok l' /\ ~ Forall (forward square_measures) l').
Proof.
  eexists. split; [vm_compute; reflexivity|]. split.
  - cbn [forward]. repeat (apply Forall_cons || apply Forall_nil); cbn [forward]; repeat split; try discriminate. 
  - eexists. split; [vm_compute; reflexivity|]. intros H. apply Forall_inv in H. cbn [forward] in H. destruct H as ((_ & _ & X) & _). now apply X.
Qed.
(** The number of overlapping pairs of drawing calls. *)
Definition clear (e1 e2 : @Ship.event exact) : bool :=
  match cell_of square_measures e1, cell_of square_measures e2 with
  | Some (l1, r1, t1, b1), Some (l2, r2, t2, b2) =>
      let le a b := if Qclt_le_dec b a then false else true in le r1 l2 || le r2 l1 || le b1 t2 || le b2 t1
  | _, _ => false
  end.
Fixpoint overlaps (l : list (@Ship.event exact)) : nat :=
  match l with [] => O | e :: l' => (List.length (filter (fun e' => negb (clear e e')) l') + overlaps l')%nat end.
Definition overlapping (size : Z) (expr : string) : option (nat * nat) :=
  match mtex_parse ascii_only id_range squares two expr (xofZ size) (xofZ 60) tt with
  | Some (LOk (t, None, _)) =>
    match ship_call (Fin 0%Qc) (Fin 0%Qc) t with LOk (_, st) => Some (List.length (s_out st), overlaps (s_out st)) | _ => None end
  | _ => None
  end.
(** Nothing overlaps; a bar in a tiny numerator makes it overlap the line, and so does
    negative space with the letters around it. *)
Example C84_case : map (overlapping 22) ["$a+\frac{b}{\dfrac{c}{22}}$"; "$\binom{n}{k}\hspace{2}1.5\frac{\binom{1}{222}}{22}$"; "$a\!b$"] =
  [Some (8%nat, O); Some (16%nat, O); Some (2%nat, 1%nat)] /\ overlapping 1 "$\dfrac{\overline{x}}{2}$" = Some (4%nat, 1%nat).
Proof. split; vm_compute; reflexivity. Qed.
Print Assumptions C83_sides. Print Assumptions C83_truetype. Print Assumptions C84_apart. Print Assumptions C84_truetype.
