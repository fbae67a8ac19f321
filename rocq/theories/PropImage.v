(** C58: the PNG renderer. *)
From Coq Require Import ZArith String Ascii List Bool Lia Reals QArith Qcanon.
From Flocq Require Import Core.Core IEEE754.BinarySingleNaN IEEE754.PrimFloat.
From Coq Require Import Floats.
From Verif Require Import Utf8 Parser Symbols PropSymbols Arith Exact OrderLaws Box Ship ShipSpec ShipFacts ShipFacts2 PropShip
  ExactFacts Mtex MtexFacts PropMtex Ttf TtfSpec TtfFacts TtfExact PropTtf Render RenderFacts PropRender Float64Facts.
Import ListNotations.
Local Open Scope string_scope.
Local Open Scope list_scope.
Local Open Scope Z_scope.

(** ** Specification: what the calls on the graphics library draw *)
Section Picture.
Context {A : arith} {Fnt : Type}.
Notation F := (Arith.F A).

(** A string drawn with a face opened at a resolution and size, or a filled path
    (a list of sub-paths). *)
Inductive mark : Type :=
  | Text (f : option Fnt) (dpi size : F) (s : string) (x y : F)
  | Filled (path : list (list (F * F))).
(** A drawing context; the path under construction is [g_done] and the open
    sub-path [g_open]. *)
Record gctx : Type := mk_gctx {
  g_size : Z * Z; g_black : bool; g_face : option (option Fnt * F * F);
  g_done : list (list (F * F)); g_open : list (F * F);
  g_marks : list mark; g_png : list (Z * Z * list mark) }.
Definition gctx0 : gctx := mk_gctx (0, 0) false None [] [] [] [].
Definition end_sub (c : gctx) : list (list (F * F)) := match g_open c with [] => g_done c | p => g_done c ++ [p] end.
(** MoveTo starts a sub-path; LineTo extends it, or starts one; ClosePath returns to
    the start of the sub-path; Fill fills the path and clears it.  Only black ink
    with a face set is visible. *)
Definition gg_do (c : gctx) (k : @gg A Fnt) : gctx :=
  match c with
  | mk_gctx sz bl fa dn op ms png =>
    match k with
    | NewContext w h => mk_gctx (w, h) false None [] [] [] png
    | SetBlack => mk_gctx sz true fa dn op ms png
    | SetFontFace f d z => mk_gctx sz bl (Some (f, d, z)) dn op ms png
    | DrawString s x y =>
        mk_gctx sz bl fa dn op (match bl, fa with true, Some (f, d, z) => ms ++ [Text f d z s x y] | _, _ => ms end) png
    | NewSubPath => mk_gctx sz bl fa (end_sub c) [] ms png
    | MoveTo x y => mk_gctx sz bl fa (end_sub c) [(x, y)] ms png
    | LineTo x y => mk_gctx sz bl fa dn (op ++ [(x, y)]) ms png
    | ClosePath => mk_gctx sz bl fa dn (match op with [] => [] | p :: _ => op ++ [p] end) ms png
    | Fill => mk_gctx sz bl fa [] [] (if bl then ms ++ [Filled (end_sub c)] else ms) png
    | Encode => mk_gctx sz bl fa dn op ms (png ++ [(sz, ms)])
    end
  end.
(** The images written by a list of calls. *)
Definition images (l : list gg) : list (Z * Z * list mark) := g_png (fold_left gg_do l gctx0).

(** [m] shows the operation [o] at [k] times its coordinates: the string of the
    glyph in its font, or the filled rectangle (the path returns to its first corner,
    and is then closed). *)
Definition paints (dpi k : F) (o : @op A Fnt) (m : mark) : Prop :=
  match o with
  | GlyphOp x y g => m = Text (gl_font g) dpi (gl_size g) (gl_sym g) (fmul A x k) (fmul A y k)
  | RectOp x1 y1 x2 y2 =>
    let a := (fmul A x1 k, fmul A y1 k) in
    m = Filled [[a; (fmul A x2 k, fmul A y1 k); (fmul A x2 k, fmul A y2 k); (fmul A x1 k, fmul A y2 k); a; a]]
  end.
(** A face can be opened for the glyph. *)
Definition opens (face_ok : option Fnt -> F -> F -> bool) (dpi : F) (o : @op A Fnt) : Prop :=
  match o with GlyphOp _ _ g => face_ok (gl_font g) dpi (gl_size g) = true | RectOp _ _ _ _ => True end.

(** ** Proofs *)
Lemma ops_marks face_ok dpi l : forall cmds, img_ops face_ok dpi l = LOk cmds ->
  Forall (opens face_ok dpi) l /\
  exists ms, Forall2 (paints dpi (fdiv A dpi (fofZ A 72))) l ms /\
  forall sz fa m0 png, exists fa', fold_left gg_do cmds (mk_gctx sz true fa [] [] m0 png) = mk_gctx sz true fa' [] [] (m0 ++ ms) png.
Proof.
  induction l as [|o l IH]; intros cmds H; cbn [img_ops] in H.
  - injection H as <-. split; [constructor|]. exists []. split; [constructor|]. intros. exists fa. cbn. now rewrite app_nil_r.
  - destruct (img_op face_ok dpi o) as [a|] eqn:E1; cbn [lbind] in H; [|discriminate H].
    destruct (img_ops face_ok dpi l) as [b|] eqn:E2; cbn [lbind] in H; [|discriminate H]. injection H as <-.
    destruct (IH b eq_refl) as (O & ms & F2 & R).
    assert (H1 : opens face_ok dpi o /\ exists m, paints dpi (fdiv A dpi (fofZ A 72)) o m /\
      forall sz fa m0 png, exists fa', fold_left gg_do a (mk_gctx sz true fa [] [] m0 png) = mk_gctx sz true fa' [] [] (m0 ++ [m]) png).
    { destruct o as [x y g|x1 y1 x2 y2]; cbn [img_op] in E1.
      - unfold img_glyph in E1. destruct (face_ok _ _ _) eqn:FO; [|discriminate E1]. injection E1 as <-.
        split; [exact FO|]. eexists. split; [reflexivity|]. intros. eexists. reflexivity.
      - injection E1 as <-. split; [exact I|]. eexists. split; [reflexivity|]. intros. eexists. reflexivity. }
    destruct H1 as (O1 & m & P1 & R1). split; [constructor; assumption|]. exists (m :: ms). split; [constructor; assumption|].
    intros. rewrite fold_left_app. destruct (R1 sz fa m0 png) as (fa1 & ->). destruct (R sz fa1 (m0 ++ [m]) png) as (fa2 & ->).
    exists fa2. now rewrite <- app_assoc.
Qed.
Lemma ops_panic face_ok dpi l e : img_ops face_ok dpi l = LPanic e -> Exists (fun o => ~ opens face_ok dpi o) l.
Proof.
  induction l as [|o l IH]; cbn [img_ops]; [discriminate|]. intros H.
  destruct (img_op face_ok dpi o) as [a|] eqn:E1; cbn [lbind] in H.
  - right. apply IH. destruct (img_ops face_ok dpi l); [discriminate H|exact H].
  - left. destruct o as [x y g|]; [|discriminate E1]. cbn [img_op] in E1. unfold img_glyph in E1. cbn [opens].
    destruct (face_ok _ _ _); [discriminate E1|]. discriminate.
Qed.

(** One image is written, of the given size in pixels rounded up, showing each
    operation in order with coordinates scaled from points to pixels; if a face
    cannot be opened, it panics instead. *)
Theorem C58_image : forall face_ok (c : @dst_call A Fnt),
  (exists cmds ms, img_render face_ok c = LOk cmds /\ Forall (opens face_ok (d_dpi c)) (d_ops c) /\
     images cmds = [(int_ceil (fmul A (d_w c) (d_dpi c)), int_ceil (fmul A (d_h c) (d_dpi c)), ms)] /\
     Forall2 (paints (d_dpi c) (fdiv A (d_dpi c) (fofZ A 72))) (d_ops c) ms) \/
  (exists e, img_render face_ok c = LPanic e /\ Exists (fun o => ~ opens face_ok (d_dpi c) o) (d_ops c)).
Proof.
  intros face_ok c. unfold img_render. destruct (img_ops face_ok (d_dpi c) (d_ops c)) as [l|e] eqn:E; cbn [lbind].
  - left. destruct (ops_marks _ _ _ _ E) as (O & ms & F2 & R). do 2 eexists. split; [reflexivity|]. split; [exact O|].
    split; [|exact F2]. unfold images. rewrite fold_left_app.
    destruct (R (int_ceil (fmul A (d_w c) (d_dpi c)), int_ceil (fmul A (d_h c) (d_dpi c))) None [] []) as (fa & R').
    cbn [fold_left]. unfold gctx0 at 1. cbn [gg_do]. rewrite fold_left_app, R'. reflexivity.
  - right. eexists. split; [reflexivity|]. eapply ops_panic. exact E.
Qed.
End Picture.

(** For float64, the size in pixels is the real ceiling. *)
Theorem C58_size_float : forall x : float, BinarySingleNaN.is_finite (Prim2B x) = true ->
  int_ceil (A := float64) x = Zceil (B2R (Prim2B x)).
Proof. exact int_ceil_exact. Qed.
Theorem C58_size_exact : forall q : Qc, let n := int_ceil (A := exact) (Fin q) in
  (this q <= inject_Z n)%Q /\ (inject_Z n < this q + 1)%Q.
Proof.
  intros q n. assert (E : n = Qround.Qceiling q).
  { unfold n, int_ceil. cbn [fround fceil exact xceil xround xofZ]. generalize (Qround.Qceiling q). intros z.
    unfold qround. change (this (Q2Qc (inject_Z z))) with (Qred (inject_Z z)).
    assert (R : Qred (inject_Z z) = inject_Z z).
    { unfold Qred, inject_Z. cbn. pose proof (Z.ggcd_gcd z 1) as G. pose proof (Z.ggcd_correct_divisors z 1) as C.
      destruct (Z.ggcd z 1) as (g & a & b). cbn [fst snd] in *. rewrite Z.gcd_1_r in G. subst g. destruct C as [-> C].
      replace b with 1 by lia. replace (1 * a) with a by lia. reflexivity. }
    rewrite R. destruct (Qle_bool 0 (inject_Z z)) eqn:L.
    - apply Z.le_antisymm.
      + apply Z.lt_succ_r. unfold Z.succ. rewrite Zlt_Qlt. eapply Qle_lt_trans; [apply Qround.Qfloor_le|].
        rewrite inject_Z_plus. apply Qplus_lt_r. reflexivity.
      + rewrite <- (Qround.Qfloor_Z z) at 1. apply Qround.Qfloor_resp_le. rewrite <- (Qplus_0_r (inject_Z z)) at 1. apply Qplus_le_r. discriminate.
    - enough (Qround.Qfloor (- inject_Z z + (1 # 2)) = - z) by lia. rewrite <- inject_Z_opp. generalize (- z). clear. intros z. apply Z.le_antisymm.
      + apply Z.lt_succ_r. unfold Z.succ. rewrite Zlt_Qlt. eapply Qle_lt_trans; [apply Qround.Qfloor_le|].
        rewrite inject_Z_plus. apply Qplus_lt_r. reflexivity.
      + rewrite <- (Qround.Qfloor_Z z) at 1. apply Qround.Qfloor_resp_le. rewrite <- (Qplus_0_r (inject_Z z)) at 1. apply Qplus_le_r. discriminate. }
  rewrite E. split; [apply Qround.Qle_ceiling|].
  pose proof (Qround.Qceiling_lt q) as L. unfold Z.sub in L. rewrite inject_Z_plus in L.
  apply (Qplus_lt_l _ _ 1) in L. eapply Qle_lt_trans; [|exact L]. rewrite <- Qplus_assoc. rewrite Qplus_0_r. apply Qle_refl.
Qed.

(** In exact arithmetic a picture at [q] times the resolution is the same picture
    [q] times as large. *)
Definition larger (q : Qc) {Fnt} (m m' : @mark exact Fnt) : Prop :=
  let x v := fmul exact (Fin q) v in
  match m with
  | Text f d z s a b => m' = Text f (x d) z s (x a) (x b)
  | Filled p => m' = Filled (map (map (fun v => (x (fst v), x (snd v)))) p)
  end.
Definition finite_op {Fnt} (o : @op exact Fnt) : Prop :=
  match o with
  | GlyphOp x y _ => fin x /\ fin y
  | RectOp x1 y1 x2 y2 => fin x1 /\ fin y1 /\ fin x2 /\ fin y2
  end.
Lemma times_q (x : xq) (q d : Qc) : fin x ->
  fmul exact x (fdiv exact (fmul exact (Fin q) (Fin d)) (fofZ exact 72)) =
  fmul exact (Fin q) (fmul exact x (fdiv exact (Fin d) (fofZ exact 72))).
Proof.
  intros (v & ->). rewrite mul_fin, !div_fin by lia. rewrite !mul_fin. apply f_equal. field. apply zq_nz. lia.
Qed.
Theorem C58_larger_exact : forall (Fnt : Type) face_ok face_ok' (c : @dst_call exact Fnt) (q d : Qc) cmds cmds',
  d_dpi c = Fin d -> Forall finite_op (d_ops c) ->
  img_render face_ok c = LOk cmds ->
  img_render face_ok' (mk_dst (d_w c) (d_h c) (fmul exact (Fin q) (Fin d)) (d_ops c)) = LOk cmds' ->
  exists w h w' h' ms ms', images cmds = [(w, h, ms)] /\ images cmds' = [(w', h', ms')] /\ Forall2 (larger q) ms ms'.
Proof.
  intros Fnt face_ok face_ok' c q d cmds cmds' D FO H H'.
  destruct (C58_image face_ok c) as [(k & ms & E & _ & Im & P)|(e & E & _)]; rewrite H in E; [|discriminate E]. injection E as <-.
  destruct (C58_image face_ok' (mk_dst (d_w c) (d_h c) (fmul exact (Fin q) (Fin d)) (d_ops c))) as [(k' & ms' & E & _ & Im' & P')|(e & E & _)];
    rewrite H' in E; [|discriminate E]. injection E as <-.
  do 6 eexists. split; [exact Im|]. split; [exact Im'|]. cbn [d_ops d_dpi] in P'. rewrite D in P. clear -P P' FO.
  revert ms' P' FO. induction P as [|o m l ms PO P IH]; intros ms' P' FO; inversion P' as [|? m' ? ms'' PO' P'']; subst; constructor.
  - inversion FO as [|? ? F1 _]; subst. destruct o as [x y g|x1 y1 x2 y2]; cbn [paints finite_op] in *; subst m m'; cbn [larger].
    + destruct F1 as [Fx Fy]. rewrite !times_q by assumption. reflexivity.
    + destruct F1 as (F1 & F2 & F3 & F4). rewrite !times_q by assumption. reflexivity.
  - apply IH; [exact P''|]. now inversion FO.
Qed.

(** ** Render with the PNG renderer *)
Definition png_dst {A : arith} {Fnt} (face_ok : option Fnt -> Arith.F A -> Arith.F A -> bool) (enc : dst_result) (c : @dst_call A Fnt) : dst_result :=
  match img_render face_ok c with LOk _ => enc | LPanic e => DstPanic e end.

Theorem C58_render_png : forall (Fnt : Type) U range pf (sf : @sfnt float64 Fnt) dflt face_ok enc x size dpi fnts calls,
  render U range pf sf dflt (png_dst face_ok enc) x size dpi fnts = Some (calls, RetNil) ->
  exists b gs l s ops cmds ms, let t := TL KHList b (@f0 float64) gs l in
    mtex_parse U range (ttf_backend sf (chosen dflt fnts)) pf x size (fofZ float64 72) (new_ttf new_canvas) = Some (LOk ((t, None), s)) /\
    Forall2 (carries_out sf (chosen dflt fnts)) (draws f0 (fadd float64 f0 (b_height b)) false b t f0 f0) ops /\
    calls = [dst_args b dpi ops] /\ img_render face_ok (dst_args b dpi ops) = LOk cmds /\
    Forall2 (paints dpi (fdiv float64 dpi (fofZ float64 72))) ops ms /\
    let w := (b_width b / 72 * dpi)%float in
    let h := (Float64.ceil (b_height b + Float64.max (b_depth b) 0) / 72 * dpi)%float in
    (BinarySingleNaN.is_finite (Prim2B w) = true -> BinarySingleNaN.is_finite (Prim2B h) = true ->
     images cmds = [(Zceil (B2R (Prim2B w)), Zceil (B2R (Prim2B h)), ms)]).
Proof.
  intros Fnt U range pf sf dflt face_ok enc x size dpi fnts calls H.
  destruct (C47_render Fnt U range pf sf dflt (png_dst face_ok enc) x size dpi fnts)
    as [(e & _ & E)|(b & gs & l & s & L & [((e & E) & _)|(ops & C & E)])]; cbn zeta in E; rewrite H in E; try discriminate E.
  injection E as -> E.
  destruct (C58_image face_ok (dst_args b dpi ops)) as [(cmds & ms & I & _ & IM & P)|(e & I & _)];
    unfold png_dst in E; rewrite I in E; [|discriminate E].
  exists b, gs, l, s, ops, cmds, ms. split; [exact L|]. split; [exact C|]. split; [reflexivity|]. split; [exact I|]. split; [exact P|].
  cbn zeta. intros F1 F2. rewrite IM. cbn [dst_args d_w d_h d_dpi].
  change (fofZ float64 72) with 72%float. change (@f0 float64) with 0%float.
  rewrite <- (C58_size_float _ F1), <- (C58_size_float _ F2). reflexivity.
Qed.

(** ** Examples *)
(** A formula with a fraction, on the toy fonts. *)
Definition toy_render (dst : dst_call -> dst_result) x :=
  render (A := exact) ascii_only id_range (fun _ => None) (toy exact) toy_fonts dst x (Fin (Q2Qc 10)) dpi72 None.
Definition strings {A : arith} {Fnt} (l : list (@op A Fnt)) : list string :=
  flat_map (fun o => match o with GlyphOp _ _ g => [gl_sym g] | RectOp _ _ _ _ => ["-rule-"] end) l.
Definition seen {A : arith} {Fnt} (r : option (list (@dst_call A Fnt) * outcome)) : option (list (list string) * outcome) :=
  match r with Some (l, o) => Some (map (fun c => strings (d_ops c)) l, o) | None => None end.
Example C47_case : seen (toy_render (fun _ => DstErr "disk full") "$x+\frac{a}{2}$") =
  Some ([["x"; "+"; "a"; "-rule-"; "2"]], RetErr "could not render math expression: disk full").
Proof. vm_compute. reflexivity. Qed.
Example C47_panic_case : seen (toy_render (fun _ => DstNil) "$x^2$") = Some ([], Panics "unknown ast node").
Proof. vm_compute. reflexivity. Qed.
Example C57_case : only_math ascii_only "$x+\frac{a}{2}$" /\ ~ only_math ascii_only "a $x$".
Proof.
  split.
  - eexists. split; [vm_compute; reflexivity|]. repeat constructor.
  - intros (l & E & F). vm_compute in E. injection E as <-. inversion F. discriminate.
Qed.
(** In text, a symbol of a fraction is measured in text mode but drawn in math mode
    (here a minus sign), and drawing may panic although the layout succeeded. *)
Example C57_text_differs : seen (toy_render (fun _ => DstNil) "\frac{-}{2}") =
  Some ([[encode_rune 8722; "-rule-"; "2"]], RetNil).
Proof. vm_compute. reflexivity. Qed.
Definition toy_letters x : option (list (string * Z)) :=
  match mtex_parse ascii_only id_range (ttf_backend (toy exact) toy_fonts) (fun _ => None) x
     (Fin (Q2Qc 10)) (fofZ exact 72) (new_ttf new_canvas) with
  | Some (LOk ((t, None), s)) => Some (map (fun c => (c_sym c, c_size c)) (letters t))
  | _ => None
  end.
Example C57_text_panics :
  toy_letters "\frac{\mathbf{x}}{2}" = Some [("\mathbf", -1); ("2", -1)] /\
  seen (toy_render (fun _ => DstNil) "\frac{\mathbf{x}}{2}") = Some ([], Panics "tex2unicode").
Proof. split; vm_compute; reflexivity. Qed.
(** Some characters of the example are not shrunk, some are. *)
Example C56_case : toy_letters "$x+\frac{a}{2}$" = Some [("x", 0); ("+", 0); ("a", -1); ("2", -1)].
Proof. vm_compute. reflexivity. Qed.
Definition image_size (r : option (list (@dst_call exact unit) * outcome)) : option (Z * Z * nat) :=
  match r with
  | Some ([c], RetNil) =>
    match img_render (fun _ _ _ => true) c with
    | LOk cmds => match images cmds with [(w, h, ms)] => Some (w, h, List.length ms) | _ => None end
    | LPanic _ => None
    end
  | _ => None
  end.
Example C58_case : image_size (toy_render (png_dst (fun _ _ _ => true) DstNil) "$x+\frac{a}{2}$") = Some (1342, 18, 5%nat).
Proof. vm_compute. reflexivity. Qed.
