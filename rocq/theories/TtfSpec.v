(** Vocabulary for the theorems about the TrueType backend: requests, the
    histories they form, and when two requests ask for the same glyph. *)
From Coq Require Import ZArith String Ascii List Bool.
From Verif Require Import Utf8 Arith Box Ttf.
Import ListNotations.
Local Open Scope string_scope.
Local Open Scope list_scope.
Local Open Scope Z_scope.

Section TtfSpec.
Context {A : arith} {Fnt : Type}.
Notation F := (Arith.F A).
Notation font := (@Box.font A).
Variable sf : @sfnt A Fnt.
Variable fnts : @fonts Fnt.

(** The calls a user of the backend can make. *)
Inductive request : Type :=
  | RMetrics (sym : string) (ft : font) (dpi : F) (math : bool)
  | RKern (ft1 : font) (sym1 : string) (ft2 : font) (sym2 : string) (dpi : F)
  | RGlyph (x y : F) (ft : font) (sym : string) (dpi : F)
  | RRect (x1 y1 x2 y2 : F)
  | RXHeight (ft : font) (dpi : F)
  | RUnderline (ft : font) (dpi : F).

(** What the caller observes: the returned value, or what was put on the canvas. *)
Inductive answer : Type :=
  | AMetrics (m : @metrics A)
  | ANumber (x : F)
  | ADrawn (ops : list (@op A Fnt)).

(** What a call returns (or its panic) and the backend after it. *)
Definition amap {X} (f : X -> answer) (r : lres X * @ttf A Fnt) : lres answer * @ttf A Fnt :=
  (match fst r with LOk x => LOk (f x) | LPanic e => LPanic e end, snd r).
(** For a drawing call: the operations added to the canvas. *)
Definition drawn (s : @ttf A Fnt) (r : lres unit * @ttf A Fnt) : lres answer * @ttf A Fnt :=
  (match fst r with
   | LOk _ => LOk (ADrawn (skipn (List.length (t_canvas s)) (t_canvas (snd r))))
   | LPanic e => LPanic e
   end, snd r).
Definition perform (r : request) (s : @ttf A Fnt) : lres answer * @ttf A Fnt :=
  match r with
  | RMetrics sym ft dpi m => amap AMetrics (metrics_of sf fnts sym ft dpi m s)
  | RKern f1 s1 f2 s2 dpi => amap ANumber (kern sf fnts f1 s1 f2 s2 dpi s)
  | RGlyph x y ft sym dpi => drawn s (render_glyph sf fnts x y ft sym dpi s)
  | RRect x1 y1 x2 y2 => drawn s (render_rect_filled x1 y1 x2 y2 s)
  | RXHeight ft dpi => amap ANumber (xheight sf fnts ft dpi s)
  | RUnderline ft dpi => (LOk (ANumber (underline ft dpi)), s)
  end.

(** A history: calls one after the other; a caller may recover from panics and go
    on. *)
Fixpoint after (h : list request) (s : @ttf A Fnt) : @ttf A Fnt :=
  match h with [] => s | r :: h' => after h' (snd (perform r s)) end.

(** The glyphs a call needs: symbol, font, resolution and math flag.  Kern and
    RenderGlyph always use math mode. *)
Definition needs (r : request) : list (@key A * bool) :=
  match r with
  | RMetrics sym ft dpi m => [(mk_key sym ft dpi, m)]
  | RKern f1 s1 f2 s2 dpi => [(mk_key s1 f1 dpi, true); (mk_key s2 f2 dpi, true)]
  | RGlyph _ _ ft sym dpi => [(mk_key sym ft dpi, true)]
  | RRect _ _ _ _ | RXHeight _ _ | RUnderline _ _ => []
  end.

(** Symbols that mean the same in text and in math: one ASCII character other
    than the hyphen (a minus sign in math). *)
Definition plain (sym : string) : Prop :=
  exists a, sym = String a "" /\ byte a < 128 /\ a <> "-"%char.

(** Two uses of a glyph that agree: the same, or the same up to the math flag for
    a plain symbol. *)
Definition agree (q q' : @key A * bool) : Prop :=
  fst q = fst q' /\ (snd q = snd q' \/ plain (k_sym (fst q))).

End TtfSpec.
