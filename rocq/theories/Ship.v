(** Model of tex/box.go:959-1170 (Ship) and tex/utils.go. *)
From Coq Require Import ZArith Bool List String Ascii.
From Verif Require Import Arith Box.
Import ListNotations.
Local Open Scope Z_scope.
Local Open Scope list_scope.

Section Ship.
Context {A : arith}.
Notation F := (F A).
Notation tnode := (@tnode A).
Local Open Scope F.

(** The two drawing calls of font.Backend (font/font.go:17-21). *)
Inductive event : Type :=
  | EGlyph (x y : F) (ft : @font A) (sym : string) (dpi : F)
  | ERect (x1 y1 x2 y2 : F).

(** tex/box.go:965-976 Ship.  The offset is constant during a call and is passed
    as an argument; [s_out] logs the drawing calls in order. *)
Record ship : Type := mk_ship { s_max : Z; s_s : Z; s_v : F; s_h : F; s_out : list event }.

Definition emit (e : event) (st : ship) : ship := mk_ship (s_max st) (s_s st) (s_v st) (s_h st) (s_out st ++ [e]).
Definition set_h (h : F) (st : ship) : ship := mk_ship (s_max st) (s_s st) (s_v st) h (s_out st).
Definition set_v (v : F) (st : ship) : ship := mk_ship (s_max st) (s_s st) v (s_h st) (s_out st).
(** box.go:997-998 and 1077 *)
Definition push (st : ship) : ship :=
  let s := (s_s st + 1)%Z in
  mk_ship (if (s >? s_max st)%Z then s else s_max st) s (s_v st) (s_h st) (s_out st).
Definition pop (st : ship) : ship := mk_ship (s_max st) (s_s st - 1) (s_v st) (s_h st) (s_out st).

(** tex/utils.go:14-26 clamp *)
Definition clamp (v : F) : F :=
  let mn := fofZ A (-1000000000) in
  let mx := fofZ A 1000000000 in
  if fltb A v mn then mn else if fltb A mx v then mx else v.

(** box.go:1036-1049 and 1125-1138: one glue node; the result is its size, the
    rounded glue curG and the running total curGlue. *)
Definition glue_step (gs : gset) (g : glue) (curG : Z) (curGlue : F) : F * Z * F :=
  let w := g_width g - fofZ A curG in
  let upd x := let t := curGlue + x in (fround A (clamp (gs_set gs * t)), t) in
  let '(curG', curGlue') :=
    if (gs_sign gs =? 0)%Z then (curG, curGlue)
    else if (gs_sign gs =? 1)%Z then
      if Nat.eqb (g_stretch_order g) (gs_order gs) then upd (g_stretch g) else (curG, curGlue)
    else if Nat.eqb (g_shrink_order g) (gs_order gs) then upd (g_shrink g)
    else (curG, curGlue) in
  (w + fofZ A curG', curG', curGlue').

(** box.go:1068 and 707-709: Rule.render *)
Definition render_rect (x y w h : F) (st : ship) : ship := emit (ERect x y (x + w) (y + h)) st.
(** box.go:251-253 Char.Render *)
Definition render_char (x y : F) (c : tchar) (st : ship) : ship :=
  emit (EGlyph x y (c_font c) (c_sym c) (c_dpi c)) st.
(** box.go:318-326 Accent.Render *)
Definition render_accent (x y : F) (c : tchar) (st : ship) : ship :=
  emit (EGlyph (x - m_xmin (c_metrics c)) (y + m_ymin (c_metrics c)) (c_font c) (c_sym c) (c_dpi c)) st.

Definition box_width (w : F) (b : box) : box := mk_box (b_size b) w (b_height b) (b_depth b).
(** box.go:1105, 1118: node.lst.box.width = box.Width() *)
Definition set_width (w : F) (t : tnode) : tnode :=
  match t with TL k b sh g l => TL k (box_width w b) sh g l | _ => t end.

Definition t_box (t : tnode) : @box A := match t with TL _ b _ _ _ | TBox b | TRule b => b | _ => new_box f0 f0 f0 end.

(** The failed type assertion of box.go:1067, for a node without a render method. *)
Definition msg_render : string := "interface conversion: missing method render".

(** Outcome of one iteration of the loop over the children: the node (with
    overwritten widths), curG, curGlue and the state. *)
Definition step_res : Type := lres (tnode * Z * F * ship).

Definition is_vlist (k : lkind) : bool := match k with KVList => true | _ => false end.

(** tex/box.go:1001-1075: one node in a horizontal list with box [bx], glue
    setting [gs] and baseline [base].  [rec] is the recursive call. *)
Definition hstep (rec : bool -> @box A -> tnode -> ship -> lres (tnode * ship)) (ox oy : F)
    (bx : box) (gs : gset) (base : F) (x : tnode) (curG : Z) (curGlue : F) (st : ship) : step_res :=
  let stay st := LOk (x, curG, curGlue, st) in
  match x with
  | TChar c => stay (set_h (s_h st + c_width c) (render_char (s_h st + ox) (s_v st + oy) c st))
  | TAccent c => stay (set_h (s_h st + c_width c) (render_accent (s_h st + ox) (s_v st + oy) c st))
  | TKern _ w => stay (set_h (s_h st + w) st)
  | TL ((KHList | KVList) as k) b sh _ xs =>
    match xs with
    | [] => stay (set_h (s_h st + b_width b) st)
    | _ =>
      let edge := s_h st in
      match rec (is_vlist k) b x (set_v (base + sh) st) with
      | LOk (x', st) => LOk (x', curG, curGlue, set_v base (set_h (edge + b_width b) st))
      | LPanic e => LPanic e
      end
    end
  | TGlue g =>
    let '(w, G, T) := glue_step gs g curG curGlue in
    LOk (x, G, T, set_h (s_h st + w) st)
  | TBox b | TRule b | TL (KList | KCluster) b _ _ _ =>
    let h := if finf A (b_height b) then b_height bx else b_height b in
    let d := if finf A (b_depth b) then b_depth bx else b_depth b in
    let w := b_width b in
    if fltb A f0 h && fltb A f0 w then
      match x with
      | TRule _ =>
        let st := set_v (base + d) st in
        let st := render_rect (s_h st + ox) (s_v st + oy) w h st in
        let st := set_v base st in
        stay (set_h (s_h st + w) st)
      | _ => LPanic msg_render
      end
    else stay (set_h (s_h st + w) st)
  end.

(** tex/box.go:1094-1167: one node in a vertical list with box [bx], glue setting
    [gs] and left edge [left]. *)
Definition vstep (rec : bool -> @box A -> tnode -> ship -> lres (tnode * ship)) (ox oy : F)
    (bx : box) (gs : gset) (left : F) (x : tnode) (curG : Z) (curGlue : F) (st : ship) : step_res :=
  let stay st := LOk (x, curG, curGlue, st) in
  match x with
  | TKern _ w => stay (set_v (s_v st + w) st)
  | TL ((KHList | KVList) as k) b sh _ xs =>
    match xs with
    | [] => stay (set_v (s_v st + (b_height b + b_depth b)) st)
    | _ =>
      let st := set_h (left + sh) (set_v (s_v st + b_height b) st) in
      let cur_v := s_v st in
      match rec (is_vlist k) (box_width (b_width bx) b) x st with
      | LOk (x', st) => LOk (x', curG, curGlue, set_h left (set_v (cur_v + b_depth b) st))
      | LPanic e => LPanic e
      end
    end
  | TGlue g =>
    let '(w, G, T) := glue_step gs g curG curGlue in
    LOk (x, G, T, set_v (s_v st + w) st)
  | TChar _ => LPanic "tex: Char node found in vlist"
  | TAccent _ => LPanic "tex: Accent node found in vlist"
  | TBox b | TRule b | TL (KList | KCluster) b _ _ _ =>
    let w := if finf A (b_width b) then b_width bx else b_width b in
    let h := b_height b + b_depth b in
    if fltb A f0 h && fltb A f0 (b_depth b) then
      let st := set_v (s_v st + h) st in
      stay (match x with TRule _ => render_rect (s_h st + ox) (s_v st + oy) w h st | _ => st end)
    else stay st
  end.

(** The loop over the children. *)
Definition kids (step : tnode -> Z -> F -> ship -> step_res) :
    list tnode -> Z -> F -> ship -> lres (list tnode * ship) :=
  fix go (l : list tnode) (curG : Z) (curGlue : F) (st : ship) :=
    match l with
    | [] => LOk ([], st)
    | x :: l' =>
      match step x curG curGlue st with
      | LOk (x', G, T, st') =>
        match go l' G T st' with
        | LOk (r, st'') => LOk (x' :: r, st'')
        | LPanic e => LPanic e
        end
      | LPanic e => LPanic e
      end
    end.

(** tex/box.go:988-1078 hlistOut ([vert = false]) and 1080-1170 vlistOut
    ([vert = true]).  [bx] is the list's own box, passed separately because
    vlistOut overwrites the width of a nested list before descending into it; the
    result contains the tree with the overwritten widths. *)
Fixpoint ship_out (ox oy : F) (vert : bool) (bx : box) (t : tnode) (st : ship) : lres (tnode * ship) :=
  match t with
  | TL k _ sh gs l =>
    let st := push st in
    match (if vert
           then kids (vstep (ship_out ox oy) ox oy bx gs (s_h st)) l 0%Z f0 (set_v (s_v st - b_height bx) st)
           else kids (hstep (ship_out ox oy) ox oy bx gs (s_v st)) l 0%Z f0 st) with
    | LOk (l', st) => LOk (TL k bx sh gs l', pop st)
    | LPanic e => LPanic e
    end
  | _ => LOk (t, st)
  end.

(** tex/box.go:978-986 Ship.Call.  The result is the tree after the call (widths
    may have been overwritten) and the final state, whose [s_out] is the list of
    drawing calls. *)
Definition ship_call (ox oy : F) (t : tnode) : lres (tnode * ship) :=
  ship_out ox (oy + t_height t) false (t_box t) t (mk_ship 0 0 f0 f0 []).

End Ship.
