(** Model of mtex/render.go (Render) and drawtex/drawimg/drawimg.go (the PNG
    renderer). *)
From Coq Require Import ZArith String Ascii List Bool.
From Verif Require Import Symbols Arith Box Ship Mtex Ttf.
Import ListNotations.
Local Open Scope string_scope.
Local Open Scope list_scope.
Local Open Scope Z_scope.

Section Render.
Context {A : arith} {Fnt : Type}.
Notation F := (Arith.F A).
Local Open Scope F.
Variable uni_letter : Z -> bool.
Variable range : Symbols.gset -> list string.
Variable parse_float : string -> option F.
Variable sf : @sfnt A Fnt.
Variable default_fonts : @fonts Fnt.     (* font/ttf/ttf.go:287-308: the Go fonts *)

(** The calls Ship makes on the backend (tex/box.go:251-253, 318-326, 707-709). *)
Definition draw (fnts : fonts) (e : @event A) : @call A Fnt unit :=
  match e with
  | EGlyph x y ft sym dpi => render_glyph sf fnts x y ft sym dpi
  | ERect x1 y1 x2 y2 => render_rect_filled x1 y1 x2 y2
  end.
Fixpoint draw_all (fnts : fonts) (es : list (@event A)) : @call A Fnt unit :=
  match es with
  | [] => cret (LOk tt)
  | e :: es' => cbind (draw fnts e) (fun _ => draw_all fnts es')
  end.

(** One call of the Renderer interface (render.go:16-18) and what it may do. *)
Record dst_call : Type := mk_dst { d_w : F; d_h : F; d_dpi : F; d_ops : list (@op A Fnt) }.
Inductive dst_result : Type := DstNil | DstErr (e : string) | DstPanic (e : string).
(** What Render does. *)
Inductive outcome : Type := RetNil | RetErr (e : string) | Panics (e : string).

Definition ret_of (r : dst_result) : outcome :=
  match r with
  | DstNil => RetNil
  | DstErr e => RetErr ("could not render math expression: " ++ e)
  | DstPanic e => Panics e
  end.

(** render.go:20-50 Render.  The result lists the calls of [dst] and the outcome;
    None is a parser that does not terminate.  Ship draws while it traverses the
    tree; as drawing returns nothing, the calls are replayed here after the
    traversal, on the backend that Parse left.  [fonts] = None is nil. *)
Definition render (dst : dst_call -> dst_result) (expr : string) (size dpi : F) (fnts : option (@fonts Fnt)) :
    option (list dst_call * outcome) :=
  let fnts := match fnts with None => default_fonts | Some f => f end in
  match mtex_parse uni_letter range (ttf_backend sf fnts) parse_float expr size (fofZ A 72) (new_ttf new_canvas) with
  | None => None
  | Some (LPanic e) => Some ([], Panics e)
  | Some (LOk ((_, Some e), _)) => Some ([], RetErr ("could not parse math expression: " ++ e))
  | Some (LOk ((box, None), s)) =>
    match ship_call f0 f0 box with
    | LPanic e => Some ([], Panics e)
    | LOk (box, st) =>
      match draw_all fnts (s_out st) s with
      | (LPanic e, _) => Some ([], Panics e)
      | (LOk _, s) =>
        let w := t_width box in
        let h := t_height box in
        let d := t_depth box in
        let c := mk_dst (w / fofZ A 72) (fceil A (h + fmax A d f0) / fofZ A 72) dpi (cnv_ops (t_canvas s)) in
        Some ([c], ret_of (dst c))
      end
    end
  end.

(** ** drawimg *)

(** The calls on the graphics library (git.sr.ht/~sbinet/gg), which is not
    modelled. *)
Inductive gg : Type :=
  | NewContext (w h : Z)
  | SetBlack
  | SetFontFace (f : option Fnt) (dpi size : F)
  | DrawString (s : string) (x y : F)
  | NewSubPath
  | MoveTo (x y : F)
  | LineTo (x y : F)
  | ClosePath
  | Fill
  | Encode.                                (* png.Encode(r.w, ctx.Image()) *)

(** int(math.Ceil(x)); math.Round does nothing to an integer, so [fround] after
    [fceil] is the conversion to int *)
Definition int_ceil (x : F) : Z := fround A (fceil A x).

Variable face_ok : option Fnt -> F -> F -> bool.    (* opentype.NewFace(font, dpi, size) has no error *)

(** drawimg.go:60-83 drawGlyph *)
Definition img_glyph (dpi x y : F) (g : @glyph A Fnt) : lres (list gg) :=
  if face_ok (gl_font g) dpi (gl_size g) then
    let k := dpi / fofZ A 72 in
    LOk [SetFontFace (gl_font g) dpi (gl_size g); DrawString (gl_sym g) (x * k) (y * k)]
  else LPanic "could not open font face".

(** drawimg.go:85-96 drawRect *)
Definition img_rect (dpi x1 y1 x2 y2 : F) : list gg :=
  let k := dpi / fofZ A 72 in
  [NewSubPath; MoveTo (x1 * k) (y1 * k); LineTo (x2 * k) (y1 * k); LineTo (x2 * k) (y2 * k);
   LineTo (x1 * k) (y2 * k); LineTo (x1 * k) (y1 * k); ClosePath; Fill].

(** drawimg.go:46-55: one operation *)
Definition img_op (dpi : F) (o : @op A Fnt) : lres (list gg) :=
  match o with
  | GlyphOp x y g => img_glyph dpi x y g
  | RectOp x1 y1 x2 y2 => LOk (img_rect dpi x1 y1 x2 y2)
  end.
Fixpoint img_ops (dpi : F) (l : list op) : lres (list gg) :=
  match l with
  | [] => LOk []
  | o :: l' => lbind (img_op dpi o) (fun a => lbind (img_ops dpi l') (fun b => LOk (a ++ b)))
  end.

(** drawimg.go:32-58 Renderer.Render: the calls on gg.  The error is that of
    png.Encode. *)
Definition img_render (c : dst_call) : lres (list gg) :=
  let w := d_w c * d_dpi c in
  let h := d_h c * d_dpi c in
  lbind (img_ops (d_dpi c) (d_ops c)) (fun l =>
    LOk ([NewContext (int_ceil w) (int_ceil h); SetBlack] ++ l ++ [Encode])).

End Render.
