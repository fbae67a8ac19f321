(** What a shipped box tree looks like, stated without the traversal state of
    tex/box.go: the position of a node is a function of the nodes before it.

    Coordinates: x grows to the right, y downwards.  A horizontal list is placed
    by its left edge and baseline, a vertical one by its left edge and baseline,
    its top being its height above that. *)
From Coq Require Import ZArith Bool List String Ascii.
From Verif Require Import Arith Box Ship.
Import ListNotations.
Local Open Scope Z_scope.
Local Open Scope list_scope.

Section ShipSpec.
Context {A : arith}.
Notation F := (F A).
Notation tnode := (@tnode A).
Notation gset := (@gset A).
Notation box := (@box A).
Notation glue := (@glue A).
Notation tchar := (@tchar A).
Notation event := (@event A).
Notation ship := (@ship A).
Local Open Scope F.

(** ** Glue *)

(** The elasticity that takes part in a glue setting: the stretch of glue of the
    chosen order when stretching, its shrink when shrinking, none when the list is
    set at its natural size. *)
Definition elastic (gs : gset) (x : tnode) : option F :=
  match x with
  | TGlue g =>
    if (gs_sign gs =? 0)%Z then None
    else if (gs_sign gs =? 1)%Z
         then if Nat.eqb (g_stretch_order g) (gs_order gs) then Some (g_stretch g) else None
         else if Nat.eqb (g_shrink_order g) (gs_order gs) then Some (g_shrink g) else None
  | _ => None
  end.
Definition elastics (gs : gset) (l : list tnode) : list F :=
  flat_map (fun x => match elastic gs x with Some e => [e] | None => [] end) l.
Definition fsum (l : list F) : F := fold_left (fun a x => a + x) l f0.

(** The space added by glue up to the end of [pre]: setting times total
    elasticity, clamped to +-10^9 and rounded to an integer; 0 as long as no such
    glue was met. *)
Definition glue_upto (gs : gset) (pre : list tnode) : Z :=
  match elastics gs pre with
  | [] => 0%Z
  | es => fround A (clamp (gs_set gs * fsum es))
  end.

(** Size of a glue node after [pre]: natural width, minus what was added before
    it, plus what is added up to and including it. *)
Definition glue_size (gs : gset) (pre : list tnode) (g : glue) : F :=
  g_width g - fofZ A (glue_upto gs pre) + fofZ A (glue_upto gs (pre ++ [TGlue g])).

(** ** Positions *)

(** Where the node after [pre] starts: [step pre x p] is the position after [x]
    when [x] comes after [pre] and starts at [p]. *)
Fixpoint after (step : list tnode -> tnode -> F -> F) (p : F) (pre rest : list tnode) : F :=
  match rest with
  | [] => p
  | x :: r => after step (step pre x p) (pre ++ [x]) r
  end.

(** A horizontal list advances by the widths of its nodes. *)
Definition right_of (gs : gset) (pre : list tnode) (x : tnode) (h : F) : F :=
  h + match x with TGlue g => glue_size gs pre g | _ => t_width x end.
Definition hpos (gs : gset) (x0 : F) (pre : list tnode) : F := after (right_of gs) x0 [] pre.

(** Nodes other than horizontal and vertical lists that are drawn as rectangles
    if they are rules. *)
Definition is_sub (x : tnode) : bool := match x with TL KHList _ _ _ _ | TL KVList _ _ _ _ => true | _ => false end.
Definition is_solid (x : tnode) : bool :=
  match x with TBox _ | TRule _ | TL KList _ _ _ _ | TL KCluster _ _ _ _ => true | _ => false end.

(** In a vertical list a box-like node takes space only if its depth and its
    total height are positive. *)
Definition vvisible (x : tnode) : bool := fltb A f0 (t_height x + t_depth x) && fltb A f0 (t_depth x).

(** A vertical list advances by heights and depths, kerns and glue. *)
Definition below (gs : gset) (pre : list tnode) (x : tnode) (v : F) : F :=
  match x with
  | TGlue g => v + glue_size gs pre g
  | TKern _ w => v + w
  | TL (KHList | KVList) _ _ _ [] => v + (t_height x + t_depth x)
  | TL (KHList | KVList) _ _ _ _ => v + t_height x + t_depth x
  | _ => if vvisible x then v + (t_height x + t_depth x) else v
  end.
Definition vpos (gs : gset) (top : F) (pre : list tnode) : F := after (below gs) top [] pre.

(** In a horizontal list, infinite heights and depths of box-like nodes stand for
    those of the list. *)
Definition run (x y : F) : F := if finf A x then y else x.
Definition hvisible (bx : box) (x : tnode) : bool :=
  fltb A f0 (run (t_height x) (b_height bx)) && fltb A f0 (t_width x).

(** ** Drawing calls *)
Definition glyph (x y : F) (c : tchar) : event := EGlyph x y (c_font c) (c_sym c) (c_dpi c).
Definition rect (x y w h : F) : event := ERect x y (x + w) (y + h).

(** All splits of a list into nodes before, node, in order. *)
Definition each {X} (f : list tnode -> tnode -> list X) : list tnode -> list tnode -> list X :=
  fix go (pre rest : list tnode) :=
    match rest with
    | [] => []
    | x :: r => f pre x ++ go (pre ++ [x]) r
    end.

(** The drawing calls of a list with box [bx] whose left edge is [x] and whose
    baseline is [v], all moved by the origin ([ox],[oy]).  The width a nested list
    has inside a vertical list is that of the enclosing list. *)
Fixpoint draws (ox oy : F) (vert : bool) (bx : box) (t : tnode) (x v : F) : list event :=
  match t with
  | TL _ _ _ gs l =>
    each (fun pre y =>
      if vert then
        let top := vpos gs (v - b_height bx) pre in
        match y with
        | TL ((KHList | KVList) as k) b sh _ _ =>
          draws ox oy (is_vlist k) (box_width (b_width bx) b) y (x + sh) (top + t_height y)
        | TRule r =>
          let h := b_height r + b_depth r in
          if vvisible y then [rect (x + ox) (top + h + oy) (run (b_width r) (b_width bx)) h] else []
        | _ => []
        end
      else
        let left := hpos gs x pre in
        match y with
        | TChar c => [glyph (left + ox) (v + oy) c]
        | TAccent c =>
          [glyph (left + ox - m_xmin (c_metrics c)) (v + oy + m_ymin (c_metrics c)) c]
        | TL ((KHList | KVList) as k) b sh _ _ => draws ox oy (is_vlist k) b y left (v + sh)
        | TRule r =>
          if hvisible bx y
          then [rect (left + ox) (v + run (b_depth r) (b_depth bx) + oy) (b_width r) (run (b_height r) (b_height bx))]
          else []
        | _ => []
        end) [] l
  | _ => []
  end.

(** ** Panics *)

(** A character in a vertical list, or a visible node that is neither a rule nor
    a character in a horizontal list, at any depth of horizontal and vertical
    lists. *)
Inductive stuck : bool -> tnode -> Prop :=
  | stuck_char k b sh gs l c : In (TChar c) l -> stuck true (TL k b sh gs l)
  | stuck_accent k b sh gs l c : In (TAccent c) l -> stuck true (TL k b sh gs l)
  | stuck_box k b sh gs l x :
      In x l -> is_solid x = true -> (forall r, x <> TRule r) -> hvisible b x = true ->
      stuck false (TL k b sh gs l)
  | stuck_sub vert k b sh gs l k' b' sh' gs' l' :
      In (TL k' b' sh' gs' l') l -> is_sub (TL k' b' sh' gs' l') = true ->
      stuck (is_vlist k') (TL k' b' sh' gs' l') ->
      stuck vert (TL k b sh gs l).

(** ** Nesting *)
Fixpoint nest (t : tnode) : Z :=
  match t with
  | TL _ _ _ _ l =>
    (1 + fold_right (fun x m => Z.max (match x with TL (KHList | KVList) _ _ _ (_ :: _) => nest x | _ => 0 end) m) 0 l)%Z
  | _ => 0%Z
  end.

(** ** Overwritten widths: inside a vertical list every non-empty nested list
    gets the width of the enclosing list. *)
Fixpoint overwritten (vert : bool) (bx : box) (t : tnode) : tnode :=
  match t with
  | TL k _ sh gs l =>
    TL k bx sh gs (map (fun y =>
      match y with
      | TL ((KHList | KVList) as k') b _ _ (_ :: _) =>
        overwritten (is_vlist k') (if vert then box_width (b_width bx) b else b) y
      | _ => y
      end) l)
  | _ => t
  end.

End ShipSpec.
