(** C97: the drawing mtex.Render passes to its renderer, in float64. *)
From Coq Require Import ZArith String Ascii List Bool Lia QArith Qcanon Qreals Reals Lqa Lra Psatz.
From Flocq Require Import Core.Core IEEE754.BinarySingleNaN IEEE754.PrimFloat.
From Verif Require Import Utf8 Token Ast SetTable Parser Symbols PropSymbols Arith Exact ExactFacts Box Ship ShipSpec PropShip PropParse
  Mtex MtexFacts PropMtex MtexHoare PropRead GeomSpec GeomFacts ReadSpec TreeSpec SizeSpec PropSize Float64Facts PropError PropCost PicSpec PropPic
  OrderLaws MtexHoare FontSim Ttf TtfSpec TtfFacts TtfExact PropTtf Render RenderFacts PropRender PropImage PropFormula Apx SizeApx PropApx TtfRound ApxSpec SizeTtfSpec PropSizeTtf PicApxSpec PropPicApx.
From Coq Require Import Floats Lra.
Import SizeSpec ApxSpec SizeTtfSpec.
Import ListNotations.
Local Open Scope string_scope.
Local Open Scope list_scope.
Local Open Scope R_scope.

Lemma Forall2_imp {A B} (P Q : A -> B -> Prop) l1 l2 : (forall a b, P a b -> Q a b) -> Forall2 P l1 l2 -> Forall2 Q l1 l2.
Proof. intros H. induction 1; constructor; auto. Qed.
(** If mtex.Render gets as far as calling its renderer, it passes the drawing of the
    picture of the formula with its upper left corner at (0, 0): operations on the
    canvas for drawing calls [es], each drawn as a fresh backend draws it (a glyph:
    unless its font has size 0), the calls following the picture up to the error of
    C97_picture and staying within the height of the formula. *)
Theorem C97_render : forall (Fnt : Type) U range pf pq (sf : @sfnt float64 Fnt) dflt dst x l B (size : Qc) fsize dpi fnts calls out,
  let f := chosen dflt fnts in
  let M := font_measures pq (on_paper sf) f (zq 72) in
  fair range -> 1 <= B <= 2 ^ 900 -> (0 <= size)%Qc -> real size <= B -> is_number fsize size ->
  int32_font sf -> fonts_within B sf f size (zq 72) -> numbers_within B pf pq (em M size) ->
  parse_expr U x = Ok l -> Forall (fun n => is_math n = true) l -> Forall unresized l ->
  let X := (IZR (zlen x) + 2) * (INR (levels_of l) + 1) in
  X <= 2 ^ 15 ->
  render U range pf sf dflt dst x fsize dpi fnts = Some (calls, out) ->
  let m := size_of_expression M x size (zq 72) l in
  let b := INR (bars_of l) in
  (calls = [] /\ exists p, out = Panics p) \/
  exists w h ops es, calls = [mk_dst w h dpi ops] /\
    Forall2 (fun e o =>
      match e with
      | EGlyph _ _ ft _ _ => finite (f_size ft) -> R_of (f_size ft) <> 0 -> fresh_drawing sf f e o
      | ERect _ _ _ _ => fresh_drawing sf f e o
      end) es ops /\
    drawn (X ^ 2 * B / 2 ^ 31) 72%float 1 0 (real (x_h m)) (picture_of M x size (zq 72) l) es /\
    (has_delimiters (on_paper sf) f (zq 72) size ->
     Forall (stays64 M ((b + 1) * (X ^ 2 * B / 2 ^ 31)) (- (b / 2)) (real (x_h m) + real (x_d m) + b / 2)) es).
Proof.
  intros * FR BB SP SB NS I32 FW NW P OM UR X XB R m b.
  destruct (C47_render_generic float64_eq float64_zero U range pf sf dflt dst x fsize dpi fnts)
    as [(er & _ & R')|(bx & gs & k & s & L & [((er & R') & _)|_])];
    [rewrite R in R'; left; split; [|exists er]; inversion R'; reflexivity..|].
  assert (OM' : only_math U x) by (exists l; split; [exact P|exact OM]).
  destruct (C57_math_renders Fnt U range pf sf dflt dst x fsize dpi fnts bx gs k s OM' L) as (ops & F2 & R').
  rewrite R in R'. assert (Q : calls = [dst_args bx dpi ops]) by (inversion R'; reflexivity). clear R R'. subst calls. right.
  destruct (int32 72 ltac:(lia)) as (F72 & V72 & _). destruct (int32 0 ltac:(lia)) as (F0 & V0 & _).
  assert (N72 : is_number (Float64.ofZ 72) (zq 72)) by exact (conj F72 (eq_trans V72 (eq_sym (real_zq 72)))).
  assert (N0 : is_number (Float64.ofZ 0) 0%Qc) by (split; [exact F0|now rewrite V0, real_0]).
  assert (B0 : Rabs (real 0) <= B) by (rewrite real_0, Rabs_R0; lra).
  destruct (C97_truetype Fnt U range pf pq sf f x l B size (zq 72) 0%Qc 0%Qc fsize (Float64.ofZ 72) (Float64.ofZ 0) (Float64.ofZ 0) [] new_canvas _ _ _
    FR BB SP (ltac:(discriminate) : (0 <= zq 72)%Qc) NS N72 N0 B0 N0 B0 SB I32 FW NW P OM UR (Forall_nil _) XB L) as (t' & st & SC & D & RM).
  apply ship_ok_inv in SC as (_ & _ & SE). assert (SO : s_out st = draws (Float64.ofZ 0) (fadd float64 (Float64.ofZ 0) (b_height bx)) false bx (TL KHList bx (@f0 float64) gs k) (@f0 float64) (@f0 float64)) by (rewrite SE; reflexivity).
  eexists _, _, ops, (s_out st). split; [unfold dst_args; reflexivity|]. split; [|split].
  - rewrite SO. refine (Forall2_imp _ _ _ _ _ F2). intros [x0 y0 ft sym d|] o H; [|exact H].
    intros F Z. apply H.
    + rewrite eqb_equiv, Beqb_correct by assumption. apply Raux.Req_bool_true. reflexivity.
    + change 0%float with (Float64.ofZ 0). rewrite eqb_equiv, Beqb_correct by assumption. apply Raux.Req_bool_false. change (R_of (f_size ft) <> R_of (Float64.ofZ 0)). now rewrite V0.
  - fold M m X in D. rewrite real_0, Rplus_0_l in D. exact D.
  - intros HD. specialize (RM HD). fold M m X b in RM. rewrite real_0 in RM.
    replace (- (b / 2)) with (0 - b / 2) by ring. replace (real (x_h m) + real (x_d m) + b / 2) with (0 + (real (x_h m) + real (x_d m)) + b / 2) by ring. exact RM.
Qed.
(** ** A case *)
(** The formula of C92_case, rendered: glyphs with their places, lines with their
    corners, and the same in the picture. *)
Definition c97_ops : option (list (list float)) :=
  match render ascii_only id_range two64 tiles toy_fonts (fun _ => DstNil) c92_expr 10%float 300%float None with
  | Some ([c], RetNil) => Some (map (fun o => match o with GlyphOp x y _ => [x; y] | RectOp x1 y1 x2 y2 => [x1; y1; x2; y2] end) (d_ops c))
  | _ => None end.
Definition c97_places : list (list Q) :=
  let M := font_measures twoq (on_paper tiles) toy_fonts (zq 72) in
  map (fun p => match p with (s, [x; y; z]) => [x; y] | (_, q) => q end)
    (calls_q (ink (zq 72) 1 0 (x_h (size_of_expression M c92_expr (Q2Qc 10) (zq 72) c92_tree)) (picture_of M c92_expr (Q2Qc 10) (zq 72) c92_tree))).
Example C97_render_case : (IZR (zlen c92_expr) + 2) * (INR (levels_of c92_tree) + 1) <= 2 ^ 15 /\
  has_delimiters (on_paper tiles) (chosen toy_fonts None) (zq 72) (Q2Qc 10) /\
  c97_ops = Some [[0; 0x1.2cd5555555556p+3]; [0x1.4c85555555555p+2; 0x1.2cd5555555556p+3]; [0x1.6992aaaaaaaaap+3; 0x1.2cd5555555556p+3]; [0x1.1671555555555p+4; 0x1.23aaaaaaaaaabp+2]; [0x1.4f68aaaaaaaaap+4; 0x1.23aaaaaaaaaabp+2]; [0x1.1671555555555p+4; 0x1.e780000000000p+2; 0x1.8860000000000p+4; 0x1.07c0000000000p+3]; [0x1.3671555555555p+4; 0x1.ad95555555556p+3]; [0x1.1f91555555555p+5; 0x1.0a66666666668p+0; 0x1.4842000000000p+5; 0x1.aa66666666668p+0]; [0x1.1f91555555555p+5; 0x1.31a2222222222p+3]]%float /\
  c97_places = [[0; 1805 # 192]; [15961 # 3072; 1805 # 192]; [34711 # 3072; 1805 # 192]; [53461 # 3072; 875 # 192]; [128797 # 6144; 875 # 192]; [53461 # 3072; 975 # 128; 3139 # 128; 1055 # 128]; [59605 # 3072; 5155 # 384]; [55213 # 1536; 333 # 320; 42017 # 1024; 533 # 320]; [55213 # 1536; 9169 # 960]]%Q.
Proof.
  split; [replace (levels_of c92_tree) with 1%nat by (vm_compute; reflexivity); change (zlen c92_expr) with (Z.of_nat (String.length c92_expr)); cbn; lra|].
  split; [exact C97_tiles|]. split; vm_compute; reflexivity.
Qed.
Print Assumptions C97_render.
