(** Left and right of a picture, and overlapping parts (C83, C84). *)
From Coq Require Import ZArith String Ascii List Bool QArith Qcanon.
From Verif Require Import Utf8 Token Ast Arith Exact Box Ship GeomSpec ReadSpec SizeSpec PicSpec.
Import ListNotations.
Local Open Scope string_scope.
Local Open Scope list_scope.
Local Open Scope Qc_scope.

(** A drawing call stays between [a] (left) and [b] (right): a glyph takes its
    advance. *)
Definition within (M : measures) (a b : Qc) (e : @event exact) : Prop :=
  match e with
  | EGlyph (Fin x) _ f c _ => a <= x /\ x + adv M c f true <= b
  | ERect (Fin x1) _ (Fin x2) _ => a <= x1 /\ x2 <= b
  | _ => False
  end.

(** Fonts: advances grow with the font and do not depend on the mode, they are not
    negative, and kerning moves no glyph back past the beginning or the end of its
    neighbour. *)
Definition forward_fonts (M : measures) (size : Qc) : Prop :=
  (forall s f m, adv M s f m = adv M s f true) /\
  (forall s f z k, f_size f = Fin z -> 0 <= k -> adv M s (resize k f) true = k * adv M s f true) /\
  (forall s f, f_size f = Fin size -> 0 <= adv M s f true) /\
  (forall s f s' f', f_size f = Fin size -> f_size f' = Fin size ->
     0 <= adv M s f true + pair M f s f' s' /\ 0 <= adv M s' f' true + pair M f s f' s').

(** Expressions that never move back: without \!, negative \hspace and roots with
    an index. *)
Fixpoint forward (M : measures) (n : node) : Prop :=
  let all := fix all l := match l with [] => True | x :: l' => forward M x /\ all l' end in
  match n with
  | NList l | NMath _ _ l _ | NArg _ l _ | NOptArg _ l _ | NMacro None l => all l
  | NSym _ s => s <> "\!"
  | NMacro (Some (_, name)) l => name <> "\!" /\ all l /\
      match l with
      | NArg _ (NLit _ v :: _) _ :: _ => name = "\hspace" -> 0 <= number M v
      | NOptArg _ _ _ :: _ => name <> "\sqrt"
      | _ => True
      end
  | _ => True
  end.

(** The cell of a drawing call: left, right, top, bottom. *)
Definition cell_of (M : measures) (e : @event exact) : option (Qc * Qc * Qc * Qc) :=
  match e with
  | EGlyph (Fin x) (Fin y) f c _ => Some (x, x + adv M c f true, y - up M c f true, y + down M c f true)
  | ERect (Fin x1) (Fin y1) (Fin x2) (Fin y2) => Some (x1, x2, y1, y2)
  | _ => None
  end.
(** Two cells do not overlap: one is left of, right of, above or below the other. *)
Definition apart (M : measures) (e1 e2 : @event exact) : Prop :=
  match cell_of M e1, cell_of M e2 with
  | Some (l1, r1, t1, b1), Some (l2, r2, t2, b2) => r1 <= l2 \/ r2 <= l1 \/ b1 <= t2 \/ b2 <= t1
  | _, _ => False
  end.
(** Any two calls of a list, at different places of it. *)
Definition any_two {X} (R : X -> X -> Prop) (l : list X) : Prop :=
  forall i j a b, (i < j)%nat -> nth_error l i = Some a -> nth_error l j = Some b -> R a b.
(** Kerning does not pull glyphs together. *)
Definition loose_fonts (M : measures) (size : Qc) : Prop :=
  forall s f s' f', f_size f = Fin size -> f_size f' = Fin size -> 0 <= pair M f s f' s'.
