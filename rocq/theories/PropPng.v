(** C78: the PNG image of a formula. *)
From Coq Require Import ZArith String Ascii List Bool Lia QArith Qround Qcanon Lqa.
From Verif Require Import Utf8 Token Ast SetTable Parser Symbols PropSymbols Arith Exact OrderLaws ExactFacts Box Ship ShipSpec ShipFacts ShipFacts2 PropShip
  Mtex MtexFacts MtexFacts2 PropMtex MtexHoare MtexSim Ttf TtfSpec TtfFacts TtfExact PropTtf Render RenderFacts PropRender PropImage
  ReadSpec PropRead GeomSpec GeomFacts PropGeom SizeSpec SizeFacts PropSize PropFormula PicSpec RoomFacts PropPic.
Import ListNotations.
Local Open Scope string_scope.
Local Open Scope list_scope.
Local Open Scope Z_scope.

(** ** Specification *)
(** The mark [m] of an image at [dpi] shows the drawing call [ev], which is in
    points: a glyph is that of its symbol in math mode, in its font size, with the
    face that a fresh backend uses for it; everything is [dpi] / 72 times as large. *)
Definition appears {Fnt} (sf : @sfnt exact Fnt) (fnts : @fonts Fnt) (dpi : Qc) (ev : @Ship.event exact) (m : @PropImage.mark exact Fnt) : Prop :=
  let px (v : Qc) := Fin (v * (dpi / zq 72))%Qc in
  match ev with
  | EGlyph (Fin x) (Fin y) ft sym _ => exists r g, index sym true = Some r /\
      (forall k, fst (perform sf fnts (RGlyph (Fin x) (Fin y) ft sym (Fin (zq 72))) (new_ttf k)) = LOk (ADrawn [GlyphOp (Fin x) (Fin y) g])) /\
      m = Text (gl_font g) (Fin dpi) (f_size ft) (encode_rune r) (px x) (px y)
  | ERect (Fin x1) (Fin y1) (Fin x2) (Fin y2) =>
      m = Filled [[(px x1, px y1); (px x2, px y1); (px x2, px y2); (px x1, px y2); (px x1, px y1); (px x1, px y1)]]
  | _ => False
  end.

(** ** Proofs *)
(** All coordinates of a picture are finite, and its resolution is that of the
    layout. *)
Definition placed (dpi : Qc) (e : @Ship.event exact) : Prop :=
  match e with
  | EGlyph (Fin _) (Fin _) ft _ d => d = Fin dpi /\ exists z, f_size ft = Fin z
  | ERect (Fin _) (Fin _) (Fin _) (Fin _) => True
  | _ => False
  end.
Fixpoint sized_marks (f : figure) : Prop :=
  match f with
  | Blank | Stroke _ _ => True
  | Join f g => sized_marks f /\ sized_marks g
  | Mark _ ft => exists z, f_size ft = Fin z
  | Move _ _ f | Slide _ f | Drop _ f | Small f => sized_marks f
  end.
Lemma ink_placed dpi f : sized_marks f -> forall k x y, Forall (placed dpi) (ink dpi k x y f).
Proof.
  induction f as [|f IHf g IHg|s ft|w h|dx dy f IH|d f IH|d f IH|f IH]; cbn [sized_marks ink]; intros H k x y; auto.
  - apply Forall_app. split; [apply IHf, H|apply IHg, H].
  - constructor; [|constructor]. cbn [placed]. split; [reflexivity|]. destruct H as (z & E). unfold resize. cbn [f_size]. rewrite E. eexists. reflexivity.
  - destruct (qltb 0 h); constructor; [exact I|constructor].
Qed.
Lemma lay_sized M l : Forall (fun s => sized_marks (snd s)) l -> forall x, sized_marks (lay M x l).
Proof. induction 1 as [|[p f] l H _ IH]; intros x; cbn [lay sized_marks]; [exact I|]. split; [exact H|apply IH]. Qed.
Lemma shapes_sized M expr size dpi n :
  (forall w m typ, Forall (fun s => sized_marks (snd s)) (shapes M expr size dpi w m typ n)) /\
  Forall (fun x => forall w m typ, Forall (fun s => sized_marks (snd s)) (shapes M expr size dpi w m typ x)) (TreeSpec.list_children n).
Proof.
  set (P := fun x => forall w m typ, Forall (fun s => sized_marks (snd s)) (shapes M expr size dpi w m typ x)). change (P n /\ Forall P (TreeSpec.list_children n)).
  assert (FC : forall l, Forall (fun n => P n /\ Forall P (TreeSpec.list_children n)) l -> Forall P l).
  { intros l H. eapply Forall_impl; [|exact H]. cbn. tauto. }
  assert (FM : forall l w m typ, Forall P l -> Forall (fun s => sized_marks (snd s)) (flat_map (shapes M expr size dpi w m typ) l)).
  { intros l w m typ H. induction H as [|x l Hx _ IH]; [constructor|]. cbn [flat_map]. apply Forall_app. split; [apply Hx|exact IH]. }
  assert (ONE : forall s : shape, sized_marks (snd s) -> Forall (fun s => sized_marks (snd s)) [s]) by (intros s H; apply Forall_cons; [exact H|apply Forall_nil]).
  assert (MK : forall s typ m, sized_marks (snd (mark s (face size typ) m))) by (intros; cbn; eauto).
  assert (SP : forall w, sized_marks (snd (space w))) by (intros; exact I).
  assert (SY : forall m typ s p, Forall (fun s => sized_marks (snd s)) (symbol_shape M expr size m typ s p)).
  { intros. unfold symbol_shape.
    destruct (one_of _ _); [destruct (_ && _)|destruct (String.eqb s "."); [destruct (decimal_point _ _)|]]; apply ONE; try apply MK;
      cbn [framed snd]; apply lay_sized; repeat (apply Forall_cons; [first [apply SP|apply MK]|]); apply Forall_nil. }
  assert (LE : forall m typ s, Forall (fun s => sized_marks (snd s)) (map (letter_shape size m typ) s)).
  { intros. induction s; cbn [map]; constructor; [apply MK|assumption]. }
  assert (DL : forall c typ H D, sized_marks (snd (delim M c (face size typ) H D))) by (intros; cbn; eauto).
  induction n using node_ind'; cbn [TreeSpec.list_children]; split; auto; try (apply Forall_nil); try (intros w m typ; apply Forall_nil).
  - intros [] m typ; [|constructor]. cbn [shapes]. apply FM. auto.
  - destruct nm as [[p name]|]; [|intros w m typ; apply Forall_nil]. intros w m typ. cbn [shapes].
    assert (A : forall x, In x l -> sized_marks (snd (box_of M (flat_map (shapes M expr size dpi true m typ) (TreeSpec.list_children x))))).
    { intros x J. cbn [box_of snd]. apply lay_sized, FM. rewrite Forall_forall in H. apply (H x J). }
    assert (AR : forall a x b, In (NArg a x b) l -> sized_marks (snd (box_of M (flat_map (shapes M expr size dpi true m typ) x)))) by (intros a x b J; exact (A _ J)).
    assert (AO : forall a x b, In (NOptArg a x b) l -> sized_marks (snd (box_of M (flat_map (shapes M expr size dpi true m typ) x)))) by (intros a x b J; exact (A _ J)).
    clear H A.
    destruct (one_of spacing_names name); [apply ONE, SP|].
    destruct (String.eqb name "\hspace").
    { destruct l as [|[] l]; try apply Forall_nil.
      match goal with |- context [match ?x with [] => _ | _ => _ end] => destruct x as [|[] ?]; try apply Forall_nil end. apply ONE, SP. }
    destruct (one_of FunctionNames_list (sdrop 1 name)). { apply ONE. cbn [framed snd]. apply lay_sized, LE. }
    destruct (one_of ["\frac"; "\tfrac"] name).
    { destruct l as [|[| | |a1 x1 b1| | | | | | | |] [|[| | |a2 x2 b2| | | | | | | |] l]]; try apply Forall_nil.
      apply ONE. cbn [frac_shape frac_figure snd sized_marks small].
      split; [apply (AR a1 x1 b1); cbn; auto|]. split; [exact I|apply (AR a2 x2 b2); cbn; auto]. }
    destruct (String.eqb name "\dfrac").
    { destruct l as [|[| | |a1 x1 b1| | | | | | | |] [|[| | |a2 x2 b2| | | | | | | |] l]]; try apply Forall_nil.
      apply ONE. cbn [frac_shape frac_figure snd sized_marks small].
      split; [apply (AR a1 x1 b1); cbn; auto|]. split; [exact I|apply (AR a2 x2 b2); cbn; auto]. }
    destruct (String.eqb name "\binom").
    { destruct l as [|[| | |a1 x1 b1| | | | | | | |] [|[| | |a2 x2 b2| | | | | | | |] l]]; try apply Forall_nil.
      apply ONE. unfold binom_shape. cbn [framed snd]. apply lay_sized. constructor; [apply DL|]. constructor; [|constructor; [apply DL|constructor]].
      cbn [frac_shape frac_figure snd sized_marks small].
      split; [apply (AR a1 x1 b1); cbn; auto|]. split; [exact I|apply (AR a2 x2 b2); cbn; auto]. }
    destruct (String.eqb name "\sqrt").
    { assert (RT : forall th e i b, match i with Some i => sized_marks (snd i) | None => True end -> sized_marks (snd b) ->
        sized_marks (snd (root_shape M th e (face size typ) i b))).
      { intros th e i b HI HB. unfold root_shape. cbn [framed snd]. apply lay_sized.
        constructor; [destruct i; cbn [snd sized_marks]; [exact HI|exact I]|]. constructor; [apply SP|]. constructor; [apply DL|].
        constructor; [|constructor]. cbn [snd lined sized_marks]. split; [exact I|exact HB]. }
      destruct l as [|y1 [|y2 [|y3 l]]]; try apply Forall_nil.
      - destruct y1; try apply Forall_nil. apply ONE, RT; [exact I|]. apply (AR _ _ _ (or_introl eq_refl)).
      - destruct y1; try apply Forall_nil; destruct y2; try apply Forall_nil. apply ONE, RT.
        + exact (AO _ _ _ (or_introl eq_refl)).
        + apply (AR _ _ _ (or_intror (or_introl eq_refl))).
      - destruct y1; try apply Forall_nil; destruct y2; apply Forall_nil. }
    destruct (String.eqb name "\overline").
    { destruct l as [|y1 l]; try apply Forall_nil. destruct y1; try apply Forall_nil. apply ONE. cbn [over_shape lined snd sized_marks].
      split; [exact I|]. apply (AR _ _ _ (or_introl eq_refl)). }
    apply SY.
  - intros w m typ. cbn [shapes]. apply FM. auto.
  - intros w m typ. cbn [shapes]. apply ONE. cbn [framed snd]. apply lay_sized, LE.
  - intros w m typ. cbn [shapes]. induction (letters s) as [|x xs IH]; [constructor|]. cbn [flat_map]. apply Forall_app. split; [apply SY|exact IH].
  - intros w m typ. cbn [shapes]. destruct m; [|apply ONE, MK]. destruct (one_of spacing_names s); [apply ONE, SP|apply SY].
Qed.
Lemma picture_placed M expr size dpi l k x y : Forall (placed dpi) (ink dpi k x y (picture_of M expr size dpi l)).
Proof.
  apply ink_placed. unfold picture_of. cbn [box_of snd]. apply lay_sized. exact (proj1 (shapes_sized M expr size dpi (NList l)) true false "rm").
Qed.

Lemma eqb_fin (q : Qc) : feqb exact (Fin q) (Fin q) = true.
Proof. cbn [feqb exact xeqb]. unfold qeqb. apply Qeq_bool_iff. reflexivity. Qed.
Lemma appears_of {Fnt} (sf : @sfnt exact Fnt) fnts dpi ev o m : placed (zq 72) ev ->
  drawn_fresh_as sf fnts ev o -> paints (Fin dpi) (fdiv exact (Fin dpi) (fofZ exact 72)) o m -> appears sf fnts dpi ev m.
Proof.
  intros PL DF P. assert (K : fdiv exact (Fin dpi) (fofZ exact 72) = Fin (dpi / zq 72)) by (apply div_fin; lia). rewrite K in P.
  destruct ev as [x y ft sym d|x1 y1 x2 y2]; cbn [placed drawn_fresh_as appears] in *.
  - destruct x as [x| | |], y as [y| | |]; try contradiction. destruct PL as (-> & z & SZ).
    destruct DF as (ft' & d' & (S1 & S2 & S3) & D & F).
    { rewrite SZ. apply eqb_fin. }
    { apply eqb_fin. }
    apply xeqb_eq in S3, D. subst d'.
    assert (ft' = ft) by (destruct ft as [n1 n2 n3], ft' as [n4 n5 n6]; cbn [f_name f_type f_size] in *; subst; reflexivity). subst ft'. clear S1 S2 S3.
    pose proof (F new_canvas) as F0. rewrite drawn_fresh in F0. destruct (glyph_val sf fnts sym ft (Fin (zq 72)) true) as [v|e] eqn:V; [|discriminate F0].
    destruct (glyph_val_facts _ _ _ _ _ _ _ V) as [VS VR].
    assert (O : o = GlyphOp (Fin x) (Fin y) (glyph_of v)).
    { destruct ft as [nm ty z']. cbn [f_size] in SZ. subst z'. rewrite key_fin_refl in F0.
      assert (Q : forall a b : @op exact Fnt, @LOk (@answer exact Fnt) (ADrawn [a]) = LOk (ADrawn [b]) -> a = b) by (intros a b E; inversion E; reflexivity).
      symmetry. now apply Q. }
    subst o. exists (v_rune v), (glyph_of v). split; [exact VR|]. split; [exact F|].
    cbn [paints] in P. rewrite !mul_fin in P. rewrite P. unfold glyph_of. cbn [gl_font gl_size gl_sym]. rewrite VS. reflexivity.
  - destruct x1, y1, x2, y2; try contradiction. subst o. cbn [paints] in P. rewrite !mul_fin in P. exact P.
Qed.

(** ** C78 *)
Lemma draws_picture {Fnt} U range pf (sf : @sfnt exact Fnt) fnts x l (size : Qc) s b gs k s' :
  fair range -> (0 <= size)%Qc -> usable pf sf fnts (zq 72) size ->
  parse_expr U x = Ok l -> Forall (fun n => is_math n = true) l -> served U range pf sf fnts s ->
  mtex_parse U range (ttf_backend sf fnts) pf x (Fin size) (Fin (zq 72)) s = Some (LOk ((TL KHList b f0 gs k, None), s')) ->
  let M := font_measures pf sf fnts (zq 72) in
  draws f0 (fadd exact f0 (b_height b)) false b (TL KHList b f0 gs k) f0 f0 =
  ink (zq 72) 1 0 (x_h (size_of_expression M x size (zq 72) l)) (picture_of M x size (zq 72) l).
Proof.
  intros FR SP US P OM SV L M.
  destruct (C76_truetype _ _ _ _ _ _ _ _ _ _ 0%Qc 0%Qc _ _ _ _ FR SP (ltac:(discriminate) : (0 <= zq 72)%Qc) US P OM SV L) as (t' & st & SC & OUT).
  apply ship_ok_inv in SC as (_ & _ & ->). cbn [s_out] in OUT. fold M in OUT. rewrite !f0_exact in OUT |- *.
  rewrite OUT. f_equal. ring.
Qed.
(** The image of a formula shows exactly the picture of the formula, at the
    resolution of the image. *)
Theorem C78_image : forall (Fnt : Type) U range pf (sf : @sfnt exact Fnt) dflt face_ok enc x l (size dpi : Qc) fnts calls,
  fair range -> (0 <= size)%Qc ->
  let f := chosen dflt fnts in
  usable pf sf f (zq 72) size ->
  parse_expr U x = Ok l -> Forall (fun n => is_math n = true) l ->
  render U range pf sf dflt (png_dst face_ok enc) x (Fin size) (Fin dpi) fnts = Some (calls, RetNil) ->
  let M := font_measures pf sf f (zq 72) in
  let e := size_of_expression M x size (zq 72) l in
  exists c cmds marks, calls = [c] /\ img_render face_ok c = LOk cmds /\
    images cmds = [(Qceiling (x_w e / zq 72 * dpi)%Qc, Qceiling (zq (Qceiling (x_h e + qmax (x_d e) 0)%Qc) / zq 72 * dpi)%Qc, marks)] /\
    Forall2 (appears sf f dpi) (ink (zq 72) 1 0 (x_h e) (picture_of M x size (zq 72) l)) marks.
Proof.
  intros * FR SP f US P OM R M e.
  destruct (C70_pixels _ _ _ _ _ _ _ _ _ _ _ _ _ _ FR SP US P OM R) as (c & cmds & marks & -> & IR & IM). fold f M e in IM.
  exists c, cmds, marks. split; [reflexivity|]. split; [exact IR|]. split; [exact IM|].
  destruct (C58_image face_ok c) as [(cmds' & ms & I & _ & IM' & PA)|(er & I & _)]; rewrite IR in I; [|discriminate I].
  assert (cmds' = cmds) by (inversion I; reflexivity). subst cmds'. rewrite IM in IM'.
  assert (ms = marks) by (inversion IM'; reflexivity). subst ms. clear I IM' IM.
  destruct (C47_render_generic exact_eq exact_zero U range pf sf dflt (png_dst face_ok enc) x (Fin size) (Fin dpi) fnts)
    as [(er & _ & R')|(b & gs & k & s & L & _)]; [rewrite R in R'; discriminate R'|]. cbv zeta in L.
  destruct (C57_math_renders_generic exact_eq exact_zero U range pf sf dflt (png_dst face_ok enc) x (Fin size) (Fin dpi) fnts b gs k s
    (ex_intro _ l (conj P OM)) L) as (ops & F2 & R').
  rewrite R in R'. assert (Q : c = dst_args b (Fin dpi) ops) by (inversion R'; reflexivity). subst c. clear R R' IR.
  fold f in L, F2. pose proof (draws_picture U range pf sf f x l size _ _ _ _ _ FR SP US P OM (served_new U range pf sf f new_canvas) L) as DP.
  cbv zeta in DP. fold M e in DP. rewrite DP in F2. cbn [dst_args d_ops d_dpi] in PA.
  pose proof (picture_placed M x size (zq 72) l 1%Qc 0%Qc (x_h e)) as PL.
  set (es := ink _ _ _ _ _) in *. clearbody es. clear - F2 PA PL. revert marks PA. induction F2 as [|ev o es ops H _ IH]; intros marks PA; inversion PA as [|? m ? ms PM PA']; subst; constructor.
  - inversion PL as [|? ? PE _]; subst. eapply appears_of; eassumption.
  - apply IH; [now inversion PL|exact PA'].
Qed.

(** Nothing of the formula is above or below the image, except that with n bars
    above each other up to n/2 points may be missing at the bottom. *)
Theorem C78_complete : forall (Fnt : Type) U range pf (sf : @sfnt exact Fnt) dflt face_ok enc x l (size dpi : Qc) fnts calls,
  fair range -> (0 <= size)%Qc -> (0 <= dpi)%Qc ->
  let f := chosen dflt fnts in
  usable pf sf f (zq 72) size -> has_delimiters sf f (zq 72) size ->
  parse_expr U x = Ok l -> Forall (fun n => is_math n = true) l ->
  render U range pf sf dflt (png_dst face_ok enc) x (Fin size) (Fin dpi) fnts = Some (calls, RetNil) ->
  let M := font_measures pf sf f (zq 72) in
  let slack := Q2Qc (Z.of_nat (bars_of l) # 2) in
  exists c cmds W H marks events bottom, calls = [c] /\ img_render face_ok c = LOk cmds /\ images cmds = [(W, H, marks)] /\
    Forall2 (appears sf f dpi) events marks /\
    Forall (stays M 0 (bottom + slack)) events /\ (bottom * (dpi / zq 72) <= zq H)%Qc.
Proof.
  intros * FR SP DP f US HD P OM R M slack.
  destruct (C78_image _ _ _ _ _ _ _ _ _ _ _ _ _ _ FR SP US P OM R) as (c & cmds & marks & EC & IR & IM & F2). fold f M in IM, F2.
  set (e := size_of_expression M x size (zq 72) l) in *.
  do 5 eexists. exists (ink (zq 72) 1 0 (x_h e) (picture_of M x size (zq 72) l)), (x_h e + x_d e)%Qc.
  split; [exact EC|]. split; [exact IR|]. split; [exact IM|]. split; [exact F2|]. split.
  - pose proof (picture_room M x size (zq 72) l 0%Qc 0%Qc (fonts_regular pf sf f (zq 72) size SP (ltac:(discriminate)) HD) SP (ltac:(discriminate))) as F.
    cbv zeta in F. fold e in F. replace (0 + x_h e)%Qc with (x_h e) in F by ring. replace (0 + (x_h e + x_d e))%Qc with (x_h e + x_d e)%Qc in F by ring. exact F.
  - assert (DD : (0 <= x_d e)%Qc) by (unfold e, size_of_expression, row; cbn [x_d]; apply fold_qmax_ge).
    rewrite (qmax_l _ _ DD).
    pose proof (Qle_ceiling (x_h e + x_d e)%Qc) as C1. set (n := Qceiling (x_h e + x_d e)%Qc) in *.
    pose proof (Qle_ceiling (zq n / zq 72 * dpi)%Qc) as C2. set (H := Qceiling (zq n / zq 72 * dpi)%Qc) in *. clearbody H.
    assert (C1' : (x_h e + x_d e <= zq n)%Qc) by (unfold Qcle, zq; cbn [this Q2Qc]; rewrite Qred_correct; exact C1).
    assert (C2' : (zq n / zq 72 * dpi <= zq H)%Qc) by (unfold Qcle, zq at 3; cbn [this Q2Qc]; rewrite Qred_correct; exact C2).
    eapply Qcle_trans; [|exact C2']. replace (zq n / zq 72 * dpi)%Qc with (zq n * (dpi / zq 72))%Qc by (unfold Qcdiv; ring).
    apply Qcmult_le_compat_r; [exact C1'|]. unfold Qcdiv. apply mul_pos; [exact DP|discriminate].
Qed.

(** ** Cases *)
(** A formula on the toy fonts (10 points, 144 dpi): size of the image in pixels,
    marks with coordinates in hundredths of a pixel; the hypotheses are met. *)
Definition png (x : string) : option (list (Z * Z * list (string * list Z)) * outcome) :=
  match render ascii_only id_range no_numbers flat toy_fonts (png_dst (fun _ _ _ => true) DstNil) x (Fin (Q2Qc 10)) (Fin (Q2Qc 144)) None with
  | Some ([c], o) =>
    match img_render (fun _ _ _ => true) c with
    | LOk cmds => Some (map (fun i => (fst (fst i), snd (fst i), map (fun m => match m with
        | Text _ _ z s a b => (s, [cents z; cents a; cents b])
        | Filled p => ("rule", flat_map (flat_map (fun v => [cents (fst v); cents (snd v)])) p)
        end) (snd i))) (images cmds), o)
    | LPanic _ => None
    end
  | _ => None
  end.
Example C78_case :
  png "$\frac{1}{2}+\overline{a}$" =
  Some ([(2138, 36,
     [("1", [700; 400; 1400]); ("rule", [0; 1775; 34180; 1775; 34180; 1900; 0; 1900; 0; 1775; 0; 1775]); ("2", [700; 0; 3425]);
      ("+", [1000; 55719; 2650]);
      ("rule", [119000; 280; 213727; 280; 213727; 405; 119000; 405; 119000; 280; 119000; 280]); ("a", [1000; 119000; 2680])])], RetNil).
Proof. vm_compute. reflexivity. Qed.
Example C78_hypotheses : usable no_numbers flat toy_fonts (zq 72) (Q2Qc 10) /\ has_delimiters flat toy_fonts (zq 72) (Q2Qc 10) /\
  exists l, parse_expr ascii_only "$\frac{1}{2}+\overline{a}$" = Ok l /\ Forall (fun n => is_math n = true) l /\ bars_of l = 1%nat.
Proof.
  split; [apply flat_usable|]. split; [apply flat_delimiters|].
  eexists. split; [vm_compute; reflexivity|]. split; [repeat constructor|reflexivity].
Qed.
Print Assumptions C78_image. Print Assumptions C78_complete.
