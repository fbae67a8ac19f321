(** Model of font/ttf/ttf.go (the TrueType backend) and drawtex/canvas.go. *)
From Coq Require Import ZArith String Ascii List Bool.
From Verif Require Import Utf8 Parser Symbols Arith Box.
Import ListNotations.
Local Open Scope string_scope.
Local Open Scope list_scope.
Local Open Scope Z_scope.

(** Result of sfnt.Font.Kern: a value, sfnt.ErrNotFound, another error. *)
Inductive kern_res : Type := KernIs (k : Z) | KernNotFound | KernError.

Section Ttf.
Context {A : arith}.
Notation F := (Arith.F A).
Notation font := (@Box.font A).
Notation metrics := (@Box.metrics A).
Local Open Scope F.

(** golang.org/x/image/font/sfnt and opentype, and unicode.L, are not modelled:
    an arbitrary font library over an arbitrary type of non-nil *sfnt.Font.  None
    (false) is an error.  Fixed-point numbers (fixed.Int26_6) are integers. *)
Record sfnt (Fnt : Type) : Type := mk_sfnt {
  sf_name : Fnt -> option string;                  (* Name(NameIDPostScript) *)
  sf_index : Fnt -> Z -> option Z;                 (* GlyphIndex(rune) *)
  sf_gname : Fnt -> Z -> option string;            (* GlyphName(index) *)
  sf_upem : Fnt -> Z;                              (* UnitsPerEm *)
  sf_load : Fnt -> Z -> Z -> bool;                 (* LoadGlyph(index, ppem) *)
  sf_advance : Fnt -> Z -> Z -> option Z;          (* GlyphAdvance(index, ppem) *)
  sf_bounds : Fnt -> Z -> Z -> option (Z * Z * Z * Z); (* GlyphBounds(index, ppem): Min.X, Min.Y, Max.X, Max.Y *)
  sf_kern : Fnt -> Z -> Z -> Z -> kern_res;        (* Kern(index, index, ppem) *)
  sf_xheight : Fnt -> F -> F -> option Z;          (* opentype.NewFace(size, dpi) and Metrics().XHeight *)
  uni_L : Z -> bool }.                             (* unicode.Is(unicode.L, rune) *)
Arguments sf_name {Fnt}. Arguments sf_index {Fnt}. Arguments sf_gname {Fnt}. Arguments sf_upem {Fnt}.
Arguments sf_load {Fnt}. Arguments sf_advance {Fnt}. Arguments sf_bounds {Fnt}. Arguments sf_kern {Fnt}.
Arguments sf_xheight {Fnt}. Arguments uni_L {Fnt}.

Context {Fnt : Type}.
Variable sf : sfnt Fnt.

(** ttf.go:26-33 Fonts; None is a nil pointer *)
Record fonts : Type := mk_fonts {
  fn_default : option Fnt; fn_rm : option Fnt; fn_it : option Fnt; fn_bf : option Fnt; fn_bfit : option Fnt }.
Variable fnts : fonts.

(** ttf.go:45-59 NewFrom: the map be.fonts, and 234-236 getFont *)
Definition get_font (typ : string) : option Fnt :=
  if String.eqb typ "default" then fn_default fnts
  else if String.eqb typ "regular" then fn_rm fnts
  else if String.eqb typ "rm" then fn_rm fnts
  else if String.eqb typ "it" then fn_it fnts
  else if String.eqb typ "bf" then fn_bf fnts
  else None.

(** ttf.go:270-274 ttfKey; as a map key it is compared with Go's == *)
Record key : Type := mk_key { k_sym : string; k_font : font; k_dpi : F }.
Definition font_eqb (f g : font) : bool :=
  String.eqb (f_name f) (f_name g) && String.eqb (f_type f) (f_type g) && feqb A (f_size f) (f_size g).
Definition key_eqb (k k' : key) : bool :=
  String.eqb (k_sym k) (k_sym k') && font_eqb (k_font k) (k_font k') && feqb A (k_dpi k) (k_dpi k').

(** ttf.go:276-285 ttfVal *)
Record val : Type := mk_val {
  v_font : option Fnt; v_size : F; v_ps : string; v_met : metrics; v_name : string;
  v_rune : Z; v_glyph : Z; v_off : F }.
Definition met0 : metrics := mk_metrics f0 f0 f0 f0 f0 f0 f0 f0 false.
(** The zero value, which a map lookup returns for an absent key. *)
Definition val0 : val := mk_val None f0 "" met0 "" 0 0 f0.

(** drawtex/canvas.go:49-57 Glyph, 35-47 the operations *)
Record glyph : Type := mk_glyph {
  gl_font : option Fnt; gl_size : F; gl_ps : string; gl_met : metrics; gl_sym : string; gl_num : Z; gl_off : F }.
Inductive op : Type :=
  | GlyphOp (x y : F) (g : glyph)
  | RectOp (x1 y1 x2 y2 : F).
(** canvas.go:13-19 Canvas and New *)
Definition canvas : Type := list op.
Definition new_canvas : canvas := [].
(** canvas.go:21-27 RenderGlyph, RenderRectFilled *)
Definition cnv_glyph (x y : F) (g : glyph) (c : canvas) : canvas := c ++ [GlyphOp x y g].
Definition cnv_rect (x1 y1 x2 y2 : F) (c : canvas) : canvas := c ++ [RectOp x1 y1 x2 y2].
(** canvas.go:29 Ops *)
Definition cnv_ops (c : canvas) : list op := c.

(** ttf.go:35-39 Backend: the glyph cache (newest first; a map, whose only
    insertion, line 163, follows a failed lookup) and the canvas.  The fonts do
    not change. *)
Record ttf : Type := mk_ttf { t_glyphs : list (key * val); t_canvas : canvas }.
(** ttf.go:41-43 New, 45-59 NewFrom *)
Definition new_ttf (c : canvas) : ttf := mk_ttf [] c.

(** A method call: it returns or panics, and leaves a state in both cases. *)
Definition call (X : Type) : Type := ttf -> lres X * ttf.
Definition cret {X} (r : lres X) : call X := fun s => (r, s).
Definition cbind {X Y} (m : call X) (k : X -> call Y) : call Y :=
  fun s => match m s with (LOk x, s') => k x s' | (LPanic e, s') => (LPanic e, s') end.
Notation "x <~ m ;; k" := (cbind m (fun x => k)) (at level 100, m at next level, right associativity).

Definition need {X} (msg : string) (o : option X) : lres X := match o with Some x => LOk x | None => LPanic msg end.
Definition lbind {X Y} (m : lres X) (k : X -> lres Y) : lres Y :=
  match m with LOk x => k x | LPanic e => LPanic e end.
Notation "x <# m ;; k" := (lbind m (fun x => k)) (at level 100, m at next level, right associativity).

(** ttf.go:225-232 isSlanted *)
Definition is_slanted (sym : string) : bool := String.eqb sym "\int" || String.eqb sym "\oint".

(** ttf.go:199-223 getGlyph, without the symbol name and size it copies *)
Definition get_glyph (sym : string) (ft : font) (math : bool) : lres (Fnt * Z * bool) :=
  idx <# need "tex2unicode" (index sym math) ;;
  let typ := if (String.eqb (f_type ft) "it" && (idx <? 65536)%Z) && negb (uni_L sf idx) then "rm" else f_type ft in
  let slanted := String.eqb typ "it" || is_slanted sym in
  f <# need "could not find TTF font" (get_font typ) ;;
  LOk (f, idx, slanted).

(** fixed.I *)
Definition fixed_I (i : Z) : Z := (i * 64)%Z.

(** ttf.go:92-172 getInfo after a cache miss: the value stored in the cache.
    UnitsPerEm is at most 65535, so int32 arithmetic on it does not overflow. *)
Definition glyph_val (sym : string) (ft : font) (dpi : F) (math : bool) : lres val :=
  g <# get_glyph sym ft math ;;
  let '(f, rn, slanted) := g in
  ps <# need "postscript name" (sf_name sf f) ;;
  idx <# need "glyph index" (sf_index sf f rn) ;;
  name <# need "glyph name" (sf_gname sf f idx) ;;
  let ppem := (sf_upem sf f * 6)%Z in
  _ <# need "load glyph" (if sf_load sf f idx (fixed_I ppem) then Some tt else None) ;;
  adv <# need "glyph advance" (sf_advance sf f idx (fixed_I ppem)) ;;
  _ <# need "load glyph" (if sf_load sf f idx (sf_upem sf f) then Some tt else None) ;;
  bnds <# need "glyph bounds" (sf_bounds sf f idx (fixed_I 12)) ;;
  let '(minx, miny, maxx, maxy) := bnds in
  let scale := f_size ft / fofZ A 12 in
  let xmin := scale * fofZ A minx / fofZ A 64 in
  let xmax := scale * fofZ A maxx / fofZ A 64 in
  let ymin := scale * fofZ A (- maxy) / fofZ A 64 in
  let ymax := scale * fofZ A (- miny) / fofZ A 64 in
  let width := xmax - xmin in
  let height := ymax - ymin in
  let offset := if String.eqb ps "Cmex10" then height / fofZ A 2 + f_size ft / fofZ A 3 * dpi / fofZ A 72 else f0 in
  let me := mk_metrics (fofZ A adv / fofZ A 65536 * f_size ft / fofZ A 12) height width
              xmin xmax (ymin + offset) (ymax + offset) (ymax + offset) slanted in
  LOk (mk_val (Some f) (f_size ft) ps me name rn idx offset).

(** be.glyphs[key] *)
Fixpoint find (k : key) (c : list (key * val)) : option val :=
  match c with
  | [] => None
  | (k', v) :: c' => if key_eqb k k' then Some v else find k c'
  end.

(** ttf.go:85-174 getInfo *)
Definition get_info (sym : string) (ft : font) (dpi : F) (math : bool) : call val :=
  fun s =>
    let k := mk_key sym ft dpi in
    match find k (t_glyphs s) with
    | Some v => (LOk v, s)
    | None =>
      match glyph_val sym ft dpi math with
      | LPanic e => (LPanic e, s)
      | LOk v =>
        let c := (k, v) :: t_glyphs s in
        (LOk (match find k c with Some v => v | None => val0 end), mk_ttf c (t_canvas s))
      end
    end.

(** ttf.go:61-73 RenderGlyph *)
Definition render_glyph (x y : F) (ft : font) (sym : string) (dpi : F) : call unit :=
  v <~ get_info sym ft dpi true ;;
  fun s => (LOk tt, mk_ttf (t_glyphs s)
    (cnv_glyph x y (mk_glyph (v_font v) (v_size v) (v_ps v) (v_met v) (encode_rune (v_rune v)) (v_glyph v) (v_off v))
       (t_canvas s))).

(** ttf.go:75-78 RenderRectFilled *)
Definition render_rect_filled (x1 y1 x2 y2 : F) : call unit :=
  fun s => (LOk tt, mk_ttf (t_glyphs s) (cnv_rect x1 y1 x2 y2 (t_canvas s))).

(** ttf.go:80-83 Metrics *)
Definition metrics_of (sym : string) (ft : font) (dpi : F) (math : bool) : call metrics :=
  v <~ get_info sym ft dpi math ;; cret (LOk (v_met v)).

(** ttf.go:176-192 XHeight; a nil font panics when used *)
Definition xheight (ft : font) (dpi : F) : call F :=
  cret (f <# need "nil pointer" (get_font (f_type ft)) ;;
        h <# need "could not open font face" (sf_xheight sf f (f_size ft) dpi) ;;
        LOk (fofZ A (- h) / fofZ A 64)).

(** ttf.go:238-246 UnderlineThickness; 0.75/12 is a constant *)
Definition underline (ft : font) (dpi : F) : F := (frat 1 16 * f_size ft * dpi) / fofZ A 72.

(** ttf.go:248-268 Kern *)
Definition kern (ft1 : font) (sym1 : string) (ft2 : font) (sym2 : string) (dpi : F) : call F :=
  if String.eqb (f_name ft1) (f_name ft2) && feqb A (f_size ft1) (f_size ft2) then
    v1 <~ get_info sym1 ft1 dpi true ;;
    v2 <~ get_info sym2 ft2 dpi true ;;
    cret (f <# need "nil pointer" (v_font v1) ;;
          match sf_kern sf f (v_glyph v1) (v_glyph v2) (sf_upem sf f) with
          | KernIs k => LOk (fofZ A k / fofZ A 64)
          | KernNotFound => LOk f0
          | KernError => LPanic "could not compute kerning"
          end)
  else cret (LOk f0).

(** The backend as seen by the layout code (Box.v), where a panic ends the run. *)
Definition to_M {X} (m : call X) : M ttf X :=
  fun s => match m s with (LOk x, s') => LOk (x, s') | (LPanic e, _) => LPanic e end.
Definition ttf_backend : @backend A ttf := {|
  be_kern := fun f1 s1 f2 s2 dpi => to_M (kern f1 s1 f2 s2 dpi);
  be_metrics := fun s f dpi m => to_M (metrics_of s f dpi m);
  be_xheight := fun f dpi => to_M (xheight f dpi);
  be_underline := fun f dpi => mret (underline f dpi) |}.

End Ttf.
Arguments sf_name {A Fnt}. Arguments sf_index {A Fnt}. Arguments sf_gname {A Fnt}. Arguments sf_upem {A Fnt}.
Arguments sf_load {A Fnt}. Arguments sf_advance {A Fnt}. Arguments sf_bounds {A Fnt}. Arguments sf_kern {A Fnt}.
Arguments sf_xheight {A Fnt}. Arguments uni_L {A Fnt}.
