(** What it means for a pointer to be the root of a tree of separate objects. *)
From Coq Require Import ZArith String List Bool.
From Verif Require Import Symbols Arith Box Ship Mtex Heap.
Import ListNotations.

Section HeapSpec.
Context {A : arith}.
Notation tnode := (@Box.tnode A).
Notation heap := (heap A).

Definition is_leaf (t : tnode) : Prop := match t with TL _ _ _ _ _ => False | _ => True end.

(** [repr h a t fp]: in the heap [h] the pointer [a] is the tree [t]; [fp] are the
    addresses of its nodes, in order of traversal. *)
Inductive repr (h : heap) : loc -> tnode -> list loc -> Prop :=
  | repr_leaf : forall a t, nth_error h a = Some (CLeaf t) -> is_leaf t -> repr h a t [a]
  | repr_list : forall a k b sh g ls l fp,
      nth_error h a = Some (CList k b sh g ls) -> reprs h ls l fp -> repr h a (TL k b sh g l) (a :: fp)
with reprs (h : heap) : list loc -> list tnode -> list loc -> Prop :=
  | reprs_nil : reprs h [] [] []
  | reprs_cons : forall a ls t l fp fps,
      repr h a t fp -> reprs h ls l fps -> reprs h (a :: ls) (t :: l) (fp ++ fps).

(** The pointer is a tree none of whose nodes occurs twice. *)
Definition tree_at (h : heap) (a : loc) (t : tnode) (fp : list loc) : Prop := repr h a t fp /\ NoDup fp.

(** Only the objects in [fp] have changed, and none has been made. *)
Definition only_changes (fp : list loc) (h h' : heap) : Prop :=
  length h' = length h /\ forall a, ~ In a fp -> nth_error h' a = nth_error h a.
(** The objects of [h] are as they were; there may be new ones. *)
Definition only_adds (h h' : heap) : Prop :=
  forall a c, nth_error h a = Some c -> nth_error h' a = Some c.

End HeapSpec.

(** ** Histories: calls on a growing collection of parsed expressions *)
Section Ops.
Context {A : arith} {S : Type}.
Notation F := (Arith.F A).
Notation tnode := (@Box.tnode A).
Notation heap := (heap A).
Notation event := (@Ship.event A).
Variable U : Z -> bool.
Variable range : Symbols.gset -> list string.
Variable be : @backend A S.
Variable parse_float : string -> option F.

(** Parse makes a new member; the others act on member [i]. *)
Inductive op : Type :=
  | OParse (expr : string) (size dpi : F)
  | OShrink (i : nat) | OGrow (i : nat)
  | OHPack (i : nat) (width : F) (additional : bool)
  | OVPack (i : nat) (height : F) (additional : bool) (lim : F)
  | OShip (i : nat) (ox oy : F).

Fixpoint set_nth {X} (i : nat) (x : X) (l : list X) : list X :=
  match l, i with
  | [], _ => []
  | _ :: l', O => x :: l'
  | y :: l', Datatypes.S i' => y :: set_nth i' x l'
  end.

(** If every member is its own tree: a call replaces the tree; the result is what was
    drawn.  A number with no member is ignored. *)
Definition on_tree (i : nat) (p : list tnode) (f : tnode -> M S (tnode * list event)) : M S (list tnode * list event) :=
  match nth_error p i with
  | Some t => r <- f t ;; mret (set_nth i (fst r) p, snd r)
  | None => mret (p, [])
  end.
Definition t_op (o : op) (p : list tnode) : M S (list tnode * list event) :=
  match o with
  | OParse x size dpi => fun s =>
    match mtex_parse U range be parse_float x size dpi s with
    | Some (LOk ((t, _), s')) => LOk ((p ++ [t], []), s')
    | Some (LPanic e) => LPanic e
    | None => LPanic "no result"
    end
  | OShrink i => on_tree i p (fun t => t' <- shrink be t ;; mret (t', []))
  | OGrow i => on_tree i p (fun t => t' <- grow be t ;; mret (t', []))
  | OHPack i w add => on_tree i p (fun t => mret (hpack w add t, []))
  | OVPack i w add lim => on_tree i p (fun t => t' <- mlift (vpack w add lim t) ;; mret (t', []))
  | OShip i ox oy => on_tree i p (fun t => r <- mlift (ship_call ox oy t) ;; mret (fst r, s_out (snd r)))
  end.
Fixpoint t_run (ops : list op) (p : list tnode) : M S (list tnode * list (list event)) :=
  match ops with
  | [] => mret (p, [])
  | o :: ops' => r <- t_op o p ;; r' <- t_run ops' (fst r) ;; mret (fst r', snd r :: snd r')
  end.

(** The same calls on pointers. *)
Notation HM := (prog A S).
Definition on_loc (i : nat) (p : list loc) (f : loc -> HM (list event)) : HM (list loc * list event) :=
  match nth_error p i with
  | Some a => r <~ f a ;; PRet (p, r)
  | None => PRet (p, [])
  end.
Definition h_op (o : op) (p : list loc) : HM (list loc * list event) :=
  match o with
  | OParse x size dpi => r <~ h_mtex_parse U range be parse_float x size dpi ;; PRet (p ++ [fst r], [])
  | OShrink i => on_loc i p (fun a => _ <~ h_shrink be a ;; PRet [])
  | OGrow i => on_loc i p (fun a => _ <~ h_grow be a ;; PRet [])
  | OHPack i w add => on_loc i p (fun a => _ <~ h_hpack w add a ;; PRet [])
  | OVPack i w add lim => on_loc i p (fun a => _ <~ h_vpack w add lim a ;; PRet [])
  | OShip i ox oy => on_loc i p (fun a => st <~ h_ship_call ox oy a ;; PRet (s_out st))
  end.
Fixpoint h_run (ops : list op) (p : list loc) : HM (list loc * list (list event)) :=
  match ops with
  | [] => PRet (p, [])
  | o :: ops' => r <~ h_op o p ;; r' <~ h_run ops' (fst r) ;; PRet (fst r', snd r :: snd r')
  end.
End Ops.

(** Shrink of a kern (tex/box.go:874-879), as a function of its fields. *)
Definition kern_shrink {A : arith} (x : Z * Arith.F A) : Z * Arith.F A :=
  let n := (fst x - 1)%Z in (n, if (n <? num_size_levels)%Z then fmul A (snd x) shrink_factor else snd x).
