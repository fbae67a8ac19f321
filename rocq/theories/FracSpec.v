(** Specification of what mtex builds for fractions and spaced symbols. *)
From Coq Require Import ZArith String Ascii List Bool.
From Verif Require Import Utf8 Token Arith Box.
Import ListNotations.
Local Open Scope string_scope.
Local Open Scope list_scope.
Local Open Scope Z_scope.

Section FracSpec.
Context {A : arith}.
Notation F := (Arith.F A).
Notation tnode := (@Box.tnode A).
Local Open Scope F.

(** [t] is [x] between two equal infinitely stretchable glues, packed to the
    width [w], at the size level 0 of new boxes. *)
Definition centred (w : F) (x t : tnode) : Prop :=
  exists b gs, t = hpack w false (TL KHList b f0 gs [glue_ss; x; glue_ss]) /\ b_size b = 0%Z.

(** [t] is the horizontal (vertical) list of the boxes [l] at its natural size. *)
Definition natural_h (l : list tnode) (t : tnode) : Prop := t = hpack f0 true (list_of KHList l).
Definition natural_v (l : list tnode) (t : tnode) : Prop := vpack f0 true (fpinf A) (list_of KVList l) = LOk t.

(** Numerator, space, bar, space, denominator on top of each other, numerator and
    denominator centred in the width of the wider one, followed by a space.  The
    bar is as wide as the stack (infinite width) and has thickness [rule].  The
    stack is moved down so that the top of the denominator is 3 [th] below the
    axis. *)
Definition stacked (num den : tnode) (th rule axis : F) (t : tnode) : Prop :=
  exists cn cd stack : tnode,
    centred (fmax A (t_width num) (t_width den)) num cn /\
    centred (fmax A (t_width num) (t_width den)) den cd /\
    natural_v [cn; vbox f0 (th * fofZ A 2); new_rule (fpinf A) (frat 1 2 * rule) (frat 1 2 * rule);
               vbox f0 (th * fofZ A 2); cd] stack /\
    natural_h [set_shift (t_height cd - (axis - fofZ A 3 * th)) stack; hbox (fofZ A 2 * th)] t.

(** The middle of a glyph. *)
Definition middle (m : @Box.metrics A) : F := (m_ymax m + m_ymin m) / fofZ A 2.

(** [t] is [x] between parentheses, each made by AutoHeightChar for the height and
    depth of [x]: a list of one character and possibly a kern. *)
Definition parenthesised {S} (be : @backend A S) (st : @state A) (x : tnode) (s : S) (t : tnode) (s' : S) : Prop :=
  exists l s1 r bl sl gl cl kl br sr gr cr kr,
    auto_height_char be "(" (fmax A f0 (t_height x)) (fmax A f0 (t_depth x)) st f0 s = LOk (l, s1) /\
    auto_height_char be ")" (fmax A f0 (t_height x)) (fmax A f0 (t_depth x)) st f0 s1 = LOk (r, s') /\
    natural_h [l; x; r] t /\
    l = TL KHList bl sl gl (TChar cl :: kl) /\ r = TL KHList br sr gr (TChar cr :: kr) /\
    c_sym cl = "(" /\ c_sym cr = ")".
End FracSpec.

(** The last byte before position [p] that is not a space is [c]. *)
Definition preceded (expr : string) (p : Z) (c : ascii) : Prop :=
  exists a blanks, slice expr 0 p = Some (a ++ String c blanks)%string /\ c <> " "%char /\
    forall d, In d (list_ascii_of_string blanks) -> d = " "%char.

(** Overlines and radicals. *)
Section BarSpec.
Context {A : arith}.
Notation F := (Arith.F A).
Notation tnode := (@Box.tnode A).
Local Open Scope F.

(** [inner] under a bar of thickness [rule] as wide as [inner], in a vertical list
    of height [H] and depth at most [lim], the space between them taking what is
    left. *)
Definition under_bar (inner : tnode) (rule H lim : F) (t : tnode) : Prop :=
  exists r0, natural_v [new_rule (fpinf A) (frat 1 2 * rule) (frat 1 2 * rule); glue_fill; inner] r0 /\
    vpack H false lim r0 = LOk t.

(** Extent of a box above and below the baseline of the list it is shifted in. *)
Definition above (t : tnode) : F := t_height t - t_shift t.
Definition beneath (t : tnode) : F := t_depth t + t_shift t.

(** [body] under a bar, 3 [th] + [e] higher than [body]. *)
Definition overlined (body : tnode) (th rule e : F) (t : tnode) : Prop :=
  exists inner rhs, natural_h [body] inner /\
    under_bar inner rule (above body + fofZ A 3 * th + e) (beneath body) rhs /\ natural_h [rhs] t.

(** The index of the root raised by 3/5 of the height of the check, moved over its
    left half; the check; the body with 2 [th] on both sides under a bar [e] higher
    than the check. *)
Definition radical (root body check : tnode) (th rule e : F) (t : tnode) : Prop :=
  exists padded rhs inner vl,
    natural_h [hbox (fofZ A 2 * th); body; hbox (fofZ A 2 * th)] padded /\
    under_bar padded rule (above check + e) (beneath check) rhs /\
    natural_h [root] inner /\ natural_v [inner] vl /\
    natural_h [set_shift ((- above check) * frat 3 5) vl; new_kern ((- t_width check) * frat 1 2); check; rhs] t.
End BarSpec.
