(** Specification vocabulary for Walk and Print. *)
From Coq Require Import ZArith String Ascii List Bool.
From Verif Require Import Utf8 Token Ast TreeSpec.
Import ListNotations.
Local Open Scope string_scope.
Local Open Scope list_scope.
Local Open Scope Z_scope.

(** The calls Visit(v, node) made by Walk, in order, when the visitor [v]
    answers node [n] by [g v n]: first the node itself; if the answer is a
    visitor [w], then the calls for the children, made on [w], then the call
    with nil, made on [w]. *)
Section Visits.
  Variable V : Type.
  Variable g : V -> node -> option V.

  Definition answer (v : V) (n : node) (children : V -> list (V * node)) : list (V * node) :=
    (v, n) :: match g v n with None => [] | Some w => children w ++ [(w, NNil)] end.

  Fixpoint visits (v : V) (n : node) : list (V * node) :=
    answer v n (fun w =>
      match n with
      | NList l | NArg _ l _ | NOptArg _ l _ | NMath _ _ l _ => flat_map (visits w) l
      | NMacro nm l =>
        (match nm with
         | Some (p, t) => answer w (NIdent p t) (fun _ => [])
         | None => []
         end) ++ flat_map (visits w) l
      | NSub _ x | NSup _ x => visits w x
      | _ => []
      end).
End Visits.

(** A tree without its positions and math delimiters. *)
Fixpoint erase (n : node) : node :=
  match n with
  | NNil => NNil
  | NList l => NList (map erase l)
  | NMacro nm l =>
    NMacro (match nm with Some (_, t) => Some (0, t) | None => None end) (map erase l)
  | NArg _ l _ => NArg 0 (map erase l) 0
  | NOptArg _ l _ => NOptArg 0 (map erase l) 0
  | NIdent _ t => NIdent 0 t
  | NMath _ _ l _ => NMath "" 0 (map erase l) 0
  | NWord _ t => NWord 0 t
  | NLit _ t => NLit 0 t
  | NSym _ t => NSym 0 t
  | NSub _ x => NSub 0 (erase x)
  | NSup _ x => NSup 0 (erase x)
  end.

(** Quoting is injective, also when something follows. *)
Definition self_delimiting (quote : string -> string) : Prop :=
  forall a b r s, append (quote a) r = append (quote b) s -> a = b /\ r = s.

(** Every macro node has a name. *)
Definition named (n : node) : Prop :=
  match n with NMacro None _ => False | _ => True end.
