(** Specification vocabulary for packing and scaling (tex package). *)
From Coq Require Import ZArith Bool List String Ascii.
From Verif Require Import Arith Box ShipSpec.
Import ListNotations.
Local Open Scope list_scope.

Section PackSpec.
Context {A : arith}.
Notation F := (F A).
Notation tnode := (@tnode A).
Notation gset := (@gset A).
Local Open Scope F.

(** [m] is a maximum of [l]. *)
Definition is_max (m : F) (l : list F) : Prop := In m l /\ forall x, In x l -> fltb A m x = false.

(** Heights (depths) that count in a horizontal list: 0, the heights of
    characters, of boxes and rules without running dimensions, and of lists after
    their shift (downwards). *)
Definition running (b : @box A) : bool := finf A (b_height b) || finf A (b_depth b).
Definition heights (l : list tnode) : list F :=
  f0 :: flat_map (fun x =>
    match x with
    | TBox b | TRule b => if running b then [] else [b_height b]
    | TL _ b s _ _ => if running b then [] else [b_height b - s]
    | TChar c | TAccent c => [c_height c]
    | TGlue _ | TKern _ _ => []
    end) l.
Definition depths (l : list tnode) : list F :=
  f0 :: flat_map (fun x =>
    match x with
    | TBox b | TRule b => if running b then [] else [b_depth b]
    | TL _ b s _ _ => if running b then [] else [b_depth b + s]
    | TChar c | TAccent c => [c_depth c]
    | TGlue _ | TKern _ _ => []
    end) l.
(** Widths that count in a vertical list. *)
Definition widths (l : list tnode) : list F :=
  f0 :: flat_map (fun x =>
    match x with
    | TBox b | TRule b | TL _ b _ _ _ => if finf A (b_width b) then [] else [b_width b]
    | _ => []
    end) l.

(** Extent of a node in a vertical list, and the depth below the last baseline. *)
Definition extent (x : tnode) : F :=
  match x with TGlue _ | TKern _ _ => t_width x | _ => t_height x + t_depth x end.
Definition last_depth (l : list tnode) : F :=
  match rev l with [] => f0 | x :: _ => t_depth x end.

(** Total elasticity of order [o]. *)
Definition tot_stretch (l : list tnode) (o : nat) : F :=
  fsum (flat_map (fun x => match x with TGlue g => if Nat.eqb (g_stretch_order g) o then [g_stretch g] else [] | _ => [] end) l).
Definition tot_shrink (l : list tnode) (o : nat) : F :=
  fsum (flat_map (fun x => match x with TGlue g => if Nat.eqb (g_shrink_order g) o then [g_shrink g] else [] | _ => [] end) l).

Definition zero (x : F) : Prop := feqb A x f0 = true.
(** [o] is the highest order (0..3) with a nonzero total. *)
Definition highest (tot : nat -> F) (o : nat) : Prop :=
  (o <= 3)%nat /\ ~ zero (tot o) /\ forall o', (o < o' <= 3)%nat -> zero (tot o').

(** The glue setting for a list that has to grow by [x]. *)
Inductive glue_setting (stretch shrink : nat -> F) (x : F) : gset -> Prop :=
  | gl_natural g : zero x -> gs_sign g = 0%Z -> glue_setting stretch shrink x g
  | gl_stretch g : ~ zero x -> fltb A f0 x = true ->
      gs_sign g = 1%Z -> highest stretch (gs_order g) -> gs_set g = x / stretch (gs_order g) ->
      glue_setting stretch shrink x g
  | gl_shrink g : ~ zero x -> fltb A f0 x = false ->
      gs_sign g = (-1)%Z -> highest shrink (gs_order g) -> gs_set g = x / shrink (gs_order g) ->
      glue_setting stretch shrink x g
  | gl_rigid g : ~ zero x -> gs_sign g = 0%Z ->
      (forall o, (o <= 3)%nat -> zero (if fltb A f0 x then stretch o else shrink o)) ->
      glue_setting stretch shrink x g.

(** The node sequence with a kern after each element whose kerning is not 0. *)
Fixpoint interleave (l : list tnode) (ks : list F) : list tnode :=
  match l, ks with
  | x :: l', k :: ks' => (if feqb A k f0 then [x] else [x; TKern 0 k]) ++ interleave l' ks'
  | _, _ => []
  end.

(** [ks] are the kernings of the elements of [l] with their successors, asked for
    in order. *)
Inductive kernings {S} (be : @backend A S) : list tnode -> S -> list F -> S -> Prop :=
  | k_nil s : kernings be [] s [] s
  | k_cons x l s k s1 ks s2 :
      kerning be x (hd_error l) s = LOk (k, s1) -> kernings be l s1 ks s2 ->
      kernings be (x :: l) s (k :: ks) s2.

(** Scaling a tree by [f], all size levels changing by [n]: every dimension,
    shift, glue setting and font size is multiplied; symbols, fonts, metrics,
    elasticities and the structure are kept. *)
Fixpoint scaled (f : F) (n : Z) (t : tnode) : tnode :=
  let sbox b := mk_box (b_size b + n) (b_width b * f) (b_height b * f) (b_depth b * f) in
  let schar c :=
    mk_char (c_sym c) (c_size c + n) (c_width c * f) (c_height c * f) (c_depth c * f) (c_metrics c)
      (mk_font (f_name (c_font c)) (f_type (c_font c)) (f_size (c_font c) * f)) (c_dpi c) (c_math c) in
  match t with
  | TBox b => TBox (sbox b)
  | TRule b => TRule (sbox b)
  | TChar c => TChar (schar c)
  | TAccent c => TAccent (schar c)
  | TGlue g => TGlue (mk_glue (g_size g + n) (g_width g * f) (g_stretch g) (g_stretch_order g) (g_shrink g) (g_shrink_order g))
  | TKern s w => TKern (s + n) (w * f)
  | TL k b sh g l =>
    TL k (sbox b) (sh * f) (mk_gset (gs_set g * f) (gs_sign g) (gs_order g) (gs_ratio g)) (map (scaled f n) l)
  end.

(** Size levels of a tree. *)
Fixpoint sizes (t : tnode) : list Z :=
  match t with
  | TBox b | TRule b => [b_size b]
  | TChar c | TAccent c => [c_size c]
  | TGlue g => [g_size g]
  | TKern s _ => [s]
  | TL _ b _ _ l => b_size b :: flat_map sizes l
  end.
Fixpoint accent_free (t : tnode) : Prop :=
  match t with
  | TAccent _ => False
  | TL _ _ _ _ l => fold_right (fun y P => accent_free y /\ P) True l
  | _ => True
  end.

End PackSpec.
