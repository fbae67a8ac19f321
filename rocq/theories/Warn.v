(** The log lines written while packing lists (package tex).  Packing itself is
    modelled in Box.v; what it writes to the standard logger is modelled here. *)
From Coq Require Import ZArith Bool List String Ascii.
From Verif Require Import Arith Box.
Import ListNotations.
Local Open Scope string_scope.
Local Open Scope list_scope.

Section Warn.
Context {A : arith}.
Notation F := (F A).
Notation tnode := (@tnode A).
Local Open Scope F.

(** tex/box.go:388-393, the end of setGlue: log.Printf("%s %s: %v", errMsg, typ,
    lst.children).  A line is modelled by its text up to the colon: what follows
    are Go's renderings of the children. *)
Definition set_glue_log (totals : list F) (err typ : string) (l : list tnode) : list string :=
  if Nat.eqb (determine_order totals) 0 then
    match l with [] => [] | _ => [err ++ " " ++ typ]%string end
  else [].

(** tex/box.go:542-552 and 638-649 *)
Definition pack_log (typ : string) (x : F) (d : dims) (l : list tnode) : list string :=
  if feqb A x f0 then []
  else if fltb A f0 x then set_glue_log (d_stretch d) "overfull" typ l
  else set_glue_log (d_shrink d) "underfull" typ l.

(** tex/box.go:506-553 HPack: its log lines *)
Definition hpack_log (width : F) (additional : bool) (t : tnode) : list string :=
  match t with
  | TL _ _ _ _ l =>
    let d := fold_left (fun d x => hpack_dims x d) l dims0 in
    let w := if additional then width + d_w d else width in
    pack_log "HList" (w - d_w d) d l
  | _ => []
  end.

(** tex/box.go:601-650 VPack: its log lines; a panic comes before any of them *)
Definition vpack_log (height : F) (additional : bool) (lim : F) (t : tnode) : list string :=
  match t with
  | TL _ _ _ _ l =>
    match vfold l dims0 with
    | LOk d =>
      let x := if fltb A lim (d_d d) then d_h d + (d_d d - lim) else d_h d in
      let h := if additional then height + x else height in
      pack_log "VList" (h - x) d l
    | LPanic _ => []
    end
  | _ => []
  end.

(** tex/box.go:461-474 HListOf, 590-599 VListOf: the lists they pack, with the
    log lines of the packing; [l] is the list after kerning. *)
Definition hlist_log (l : list tnode) : list string := hpack_log f0 true (list_of KHList l).
Definition vlist_log (l : list tnode) : list string := vpack_log f0 true (fpinf A) (list_of KVList l).
End Warn.
