(** Model of the other renderers: drawtex/drawpdf/drawpdf.go and the renderer of the
    GUI, cmd/mtex-render/gio.go:260-376. *)
From Coq Require Import ZArith String List Bool.
From Verif Require Import Arith Box Ttf Render.
Import ListNotations.
Local Open Scope string_scope.
Local Open Scope list_scope.

Section Pdf.
Context {A : arith} {Fnt : Type}.
Notation F := (Arith.F A).
(** The calls on the PDF library (github.com/go-pdf/fpdf), which is not modelled. *)
Inductive pdf_call : Type :=
  | NewCustom (unit : string) (w h : F)
  | AddPage
  | OutputFileAndClose (name : string).

(** drawpdf.go:37 drawGlyph and 38 drawRect: empty functions *)
Definition pdf_glyph (x y : F) (g : @glyph A Fnt) : list pdf_call := [].
Definition pdf_rect (x1 y1 x2 y2 : F) : list pdf_call := [].
(** drawpdf.go:22-33: one operation, without the line it logs *)
Definition pdf_op (o : @op A Fnt) : list pdf_call :=
  match o with
  | GlyphOp x y g => pdf_glyph x y g
  | RectOp x1 y1 x2 y2 => pdf_rect x1 y1 x2 y2
  end.
(** drawpdf.go:15-35 Write: the calls; its error is that of the last one. *)
Definition pdf_write (name : string) (w h : F) (c : @canvas A Fnt) : list pdf_call :=
  [NewCustom "pt" w h; AddPage] ++ flat_map pdf_op (cnv_ops c) ++ [OutputFileAndClose name].
End Pdf.

Section Gio.
Context {A : arith} {Fnt : Type}.
Notation F := (Arith.F A).
(** float32, the conversion to it and its addition: arbitrary. *)
Variable f32 : Type.
Variable to32 : F -> f32.
Variable add32 : f32 -> f32 -> f32.
Definition point : Type := (f32 * f32)%type.

(** The operations added to the list of gio (gioui.org, which is not modelled). A path
    is what was passed to clip.Path between Begin and End. *)
Inductive seg : Type := PMoveTo (p : point) | PLineTo (p : point) | PClose.
Inductive gop : Type :=
  | GSave (id : nat)
  | GLoad (id : nat)
  | GOffset (p : point)
  | GLabel (px : f32) (txt : string) (italic : bool)     (* material.Label(..).Layout, black, aligned left *)
  | GClip (path : list seg)                               (* clip.Outline{Path}.Op().Add *)
  | GFill.                                                (* paint.Fill with black *)
(** op.Ops: the list, and the number of states saved so far *)
Record gops : Type := mk_gops { o_list : list gop; o_saved : nat }.
Definition emit (l : list gop) (o : gops) : gops := mk_gops (o_list o ++ l) (o_saved o).
(** op.Save: gioui.org/op, a new number for every saved state *)
Definition gsave (o : gops) : nat * gops := (S (o_saved o), mk_gops (o_list o ++ [GSave (S (o_saved o))]) (S (o_saved o))).

(** gio.go:367-372 pt *)
Definition gpt (x y : F) : point := (to32 x, to32 y).
(** f32.Point.Add *)
Definition padd (p q : point) : point := (add32 (fst p) (fst q), add32 (snd p) (snd q)).

Local Open Scope F.
(** gio.go:332-348 drawGlyph; the deferred Load comes last *)
Definition gio_glyph (dpi x y : F) (g : @glyph A Fnt) (o : gops) : gops :=
  let '(id, o) := gsave o in
  let x := x * dpi in
  let y := (y - gl_size g) * dpi in
  emit [GOffset (gpt x y); GLabel (to32 (gl_size g * dpi)) (gl_sym g) (m_slanted (gl_met g)); GLoad id] o.
(** gio.go:350-365 drawRect *)
Definition gio_rect (offset : point) (dpi x1 y1 x2 y2 : F) (o : gops) : gops :=
  let '(id, o) := gsave o in
  emit [GClip [PMoveTo (padd (gpt (x1 * dpi) (y1 * dpi)) offset); PLineTo (padd (gpt (x2 * dpi) (y1 * dpi)) offset);
               PLineTo (padd (gpt (x2 * dpi) (y2 * dpi)) offset); PLineTo (padd (gpt (x1 * dpi) (y2 * dpi)) offset); PClose];
        GFill; GLoad id] o.
(** gio.go:319-328: one operation *)
Definition gio_op (offset : point) (dpi : F) (o : gops) (t : @op A Fnt) : gops :=
  match t with
  | GlyphOp x y g => gio_glyph dpi x y g o
  | RectOp x1 y1 x2 y2 => gio_rect offset dpi x1 y1 x2 y2 o
  end.
(** gio.go:297-330 Render (the block under "if false" is dead); it returns nil.
    [offset] is r.offset, computed in newGioRenderer from the metrics of the font. *)
Definition gio_render (offset : point) (c : @dst_call A Fnt) (o : gops) : gops :=
  fold_left (gio_op offset (d_dpi c / fofZ A 72)) (d_ops c) o.
End Gio.
Arguments PMoveTo {f32}. Arguments PLineTo {f32}. Arguments PClose {f32}.
Arguments GSave {f32}. Arguments GLoad {f32}. Arguments GOffset {f32}. Arguments GLabel {f32}. Arguments GClip {f32}. Arguments GFill {f32}.
Arguments mk_gops {f32}. Arguments o_list {f32}. Arguments o_saved {f32}.
