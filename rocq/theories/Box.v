(** Model of tex/box.go:1-957 (nodes, packing, scaling), tex/state.go and
    font/font.go. *)
From Coq Require Import ZArith Bool List String Ascii.
From Verif Require Import Arith.
Import ListNotations.
Local Open Scope Z_scope.
Local Open Scope list_scope.

(** Outcomes of the layout code. *)
Inductive lres (X : Type) : Type := LOk (x : X) | LPanic (msg : string).
Arguments LOk {X}. Arguments LPanic {X}.

Section Box.
Context {A : arith}.
Notation F := (F A).
Local Open Scope F.

(** font/font.go:9-13 Font *)
Record font : Type := mk_font { f_name : string; f_type : string; f_size : F }.

(** font/font.go:37-52 Metrics *)
Record metrics : Type := mk_metrics {
  m_adv : F; m_height : F; m_width : F;
  m_xmin : F; m_xmax : F; m_ymin : F; m_ymax : F;
  m_iceberg : F; m_slanted : bool }.

(** font/font.go:15-35 Backend, the methods used for layout.  A backend may be
    stateful ([S] is its state, e.g. a cache) and may panic.  The two rendering
    methods are modelled as a log, see Ship.v. *)
Definition M (S X : Type) : Type := S -> lres (X * S).
Definition mret {S X} (x : X) : M S X := fun s => LOk (x, s).
Definition mbind {S X Y} (m : M S X) (k : X -> M S Y) : M S Y :=
  fun s => match m s with LOk (x, s') => k x s' | LPanic e => LPanic e end.
Definition mpanic {S X} (e : string) : M S X := fun _ => LPanic e.

Record backend (S : Type) : Type := mk_backend {
  be_kern : font -> string -> font -> string -> F -> M S F;
  be_metrics : string -> font -> F -> bool -> M S metrics;
  be_xheight : font -> F -> M S F;
  be_underline : font -> F -> M S F }.
Arguments be_kern {S}. Arguments be_metrics {S}. Arguments be_xheight {S}. Arguments be_underline {S}.

(** tex/state.go:11-25 State, without the backend, which is a parameter below (one
    backend per tree). *)
Record state : Type := mk_state { st_font : font; st_dpi : F }.

(** tex/box.go:15-24 constants *)
Definition shrink_factor : F := frat 7 10.
Definition grow_factor : F := frat 10 7.
Definition num_size_levels : Z := 6.

(** tex/box.go:99-105 Box *)
Record box : Type := mk_box { b_size : Z; b_width : F; b_height : F; b_depth : F }.
(** tex/box.go:107-109 newBox *)
Definition new_box (w h d : F) : box := mk_box 0 w h d.

(** tex/box.go:177-190 Char; Accent (box.go:277-279) wraps a Char. *)
Record tchar : Type := mk_char {
  c_sym : string; c_size : Z; c_width : F; c_height : F; c_depth : F;
  c_metrics : metrics; c_font : font; c_dpi : F; c_math : bool }.

(** tex/box.go:751-758 Glue *)
Record glue : Type := mk_glue {
  g_size : Z; g_width : F; g_stretch : F; g_stretch_order : nat; g_shrink : F; g_shrink_order : nat }.

(** tex/box.go:351-356 the glue setting of a List *)
Record gset : Type := mk_gset { gs_set : F; gs_sign : Z; gs_order : nat; gs_ratio : F }.
Definition gset0 : gset := mk_gset f0 0 0 f0.

(** tex/box.go:346-357 List, 457-459 HList, 584-586 VList, 906-911
    SubSuperCluster: the same data with different method sets. *)
Inductive lkind : Type := KList | KHList | KVList | KCluster.

(** The node types (tex/box.go:1189-1226).  Children are owned by their list:
    trees sharing a node are not modelled. *)
Inductive tnode : Type :=
  | TBox (b : box)
  | TChar (c : tchar)
  | TAccent (c : tchar)
  | TRule (b : box)
  | TGlue (g : glue)
  | TKern (size : Z) (width : F)
  | TL (k : lkind) (b : box) (shift : F) (g : gset) (l : list tnode).

Section TnodeInd.
  Variable P : tnode -> Prop.
  Hypothesis Hbox : forall b, P (TBox b).
  Hypothesis Hchar : forall c, P (TChar c).
  Hypothesis Haccent : forall c, P (TAccent c).
  Hypothesis Hrule : forall b, P (TRule b).
  Hypothesis Hglue : forall g, P (TGlue g).
  Hypothesis Hkern : forall s w, P (TKern s w).
  Hypothesis Hlist : forall k b sh g l, Forall P l -> P (TL k b sh g l).
  Fixpoint tnode_ind' (t : tnode) : P t :=
    let fix go (l : list tnode) : Forall P l :=
      match l with [] => Forall_nil P | x :: l' => Forall_cons x (tnode_ind' x) (go l') end in
    match t with
    | TBox b => Hbox b | TChar c => Hchar c | TAccent c => Haccent c | TRule b => Hrule b
    | TGlue g => Hglue g | TKern s w => Hkern s w | TL k b sh g l => Hlist k b sh g l (go l)
    end.
End TnodeInd.

(** tex/box.go:131-138 etc.: Width, Height, Depth of each node type *)
Definition t_width (t : tnode) : F :=
  match t with
  | TBox b | TRule b | TL _ b _ _ _ => b_width b
  | TChar c | TAccent c => c_width c
  | TGlue g => g_width g
  | TKern _ w => w
  end.
Definition t_height (t : tnode) : F :=
  match t with
  | TBox b | TRule b | TL _ b _ _ _ => b_height b
  | TChar c | TAccent c => c_height c
  | TGlue _ | TKern _ _ => f0
  end.
Definition t_depth (t : tnode) : F :=
  match t with
  | TBox b | TRule b | TL _ b _ _ _ => b_depth b
  | TChar c | TAccent c => c_depth c
  | TGlue _ | TKern _ _ => f0
  end.

(** tex/box.go:433-436, 569-573, 666-669 accessors of lists (zero on other
    nodes, which do not implement Tree). *)
Definition t_nodes (t : tnode) : list tnode := match t with TL _ _ _ _ l => l | _ => [] end.
Definition t_glue (t : tnode) : gset := match t with TL _ _ _ g _ => g | _ => gset0 end.
Definition t_shift (t : tnode) : F := match t with TL _ _ s _ _ => s | _ => f0 end.
(** tex/box.go:588 VList.SetShift; also [hlist.lst.shift = shift] (box.go:954) *)
Definition set_shift (s : F) (t : tnode) : tnode :=
  match t with TL k b _ g l => TL k b s g l | _ => t end.

(** tex/box.go:158-166 VBox, HBox *)
Definition vbox (h d : F) : tnode := TBox (new_box f0 h d).
Definition hbox (w : F) : tnode := TBox (new_box w f0 f0).
(** tex/box.go:866-868 NewKern *)
Definition new_kern (w : F) : tnode := TKern 0 w.
(** tex/box.go:693-698 NewRule *)
Definition new_rule (w h d : F) : tnode := TRule (new_box w h d).

(** tex/box.go:760-792 NewGlue, newGlue; None is the panic on an unknown name. *)
Definition new_glue (typ : string) : option glue :=
  let mk st sto sh sho := Some (mk_glue 0 f0 st sto sh sho) in
  let m1 := fopp A f1 in
  if String.eqb typ "fil" then mk f1 1%nat f0 0%nat
  else if String.eqb typ "fill" then mk f1 2%nat f0 0%nat
  else if String.eqb typ "filll" then mk f1 3%nat f0 0%nat
  else if String.eqb typ "neg_fil" then mk f0 0%nat f1 1%nat
  else if String.eqb typ "neg_fill" then mk f0 0%nat f1 2%nat
  else if String.eqb typ "neg_filll" then mk f0 0%nat f1 3%nat
  else if String.eqb typ "empty" then mk f0 0%nat f0 0%nat
  else if String.eqb typ "ss" then mk f1 1%nat m1 1%nat
  else None.
Definition glue_ss : tnode := TGlue (mk_glue 0 f0 f1 1 (fopp A f1) 1).
Definition glue_fill : tnode := TGlue (mk_glue 0 f0 f1 2 f0 0).

(** ** Packing *)

(** The accumulators passed by pointer to hpackDims and vpackDims. *)
Record dims : Type := mk_dims { d_w : F; d_h : F; d_d : F; d_stretch : list F; d_shrink : list F }.
(** make([]float64, 4) *)
Definition zeros : list F := [f0; f0; f0; f0].
Definition dims0 : dims := mk_dims f0 f0 f0 zeros zeros.

(** totals[o] += x.  Orders are 0..3 (only newGlue sets them), so the index is
    always in range. *)
Fixpoint add_at (o : nat) (x : F) (l : list F) : list F :=
  match l, o with
  | [], _ => []
  | y :: l', O => (y + x) :: l'
  | y :: l', S o' => y :: add_at o' x l'
  end.

(** tex/box.go:140-147, 264-268, 337-339, 438-445, 575-577, 671-673, 725-727,
    819-823, 897-899: the hpackDims methods *)
Definition hpack_dims (t : tnode) (d : dims) : dims :=
  let box b sh := (* shift-adjusted; plain boxes and rules have no shift *)
    let w := d_w d + b_width b in
    if finf A (b_height b) || finf A (b_depth b) then mk_dims w (d_h d) (d_d d) (d_stretch d) (d_shrink d)
    else
      match sh with
      | None => mk_dims w (fmax A (d_h d) (b_height b)) (fmax A (d_d d) (b_depth b)) (d_stretch d) (d_shrink d)
      | Some s => mk_dims w (fmax A (d_h d) (b_height b - s)) (fmax A (d_d d) (b_depth b + s)) (d_stretch d) (d_shrink d)
      end in
  match t with
  | TBox b | TRule b => box b None
  | TL _ b s _ _ => box b (Some s)
  | TChar c | TAccent c =>
    mk_dims (d_w d + c_width c) (fmax A (d_h d) (c_height c)) (fmax A (d_d d) (c_depth c)) (d_stretch d) (d_shrink d)
  | TGlue g =>
    mk_dims (d_w d + g_width g) (d_h d) (d_d d)
      (add_at (g_stretch_order g) (g_stretch g) (d_stretch d)) (add_at (g_shrink_order g) (g_shrink g) (d_shrink d))
  | TKern _ w => mk_dims (d_w d + w) (d_h d) (d_d d) (d_stretch d) (d_shrink d)
  end.

(** tex/box.go:149-156, 270-272, 341-343, 447-454, 579-581, 675-677, 729-731,
    825-831, 901-904: the vpackDims methods ([d_h] is the running height, [d_d]
    the last depth); Char and Accent panic. *)
Definition vpack_dims (t : tnode) (d : dims) : lres dims :=
  match t with
  | TBox b | TRule b | TL _ b _ _ _ =>
    let h := d_h d + (d_d d + b_height b) in
    LOk (mk_dims (if finf A (b_width b) then d_w d else fmax A (d_w d) (b_width b))
            h (b_depth b) (d_stretch d) (d_shrink d))
  | TChar _ => LPanic "Char node in VList"
  | TAccent _ => LPanic "Accent node in VList"
  | TGlue g =>
    LOk (mk_dims (d_w d) (d_h d + d_d d + g_width g) f0
            (add_at (g_stretch_order g) (g_stretch g) (d_stretch d)) (add_at (g_shrink_order g) (g_shrink g) (d_shrink d)))
  | TKern _ w => LOk (mk_dims (d_w d) (d_h d + (d_d d + w)) f0 (d_stretch d) (d_shrink d))
  end.

(** tex/box.go:365-376 determineOrder *)
Definition determine_order (totals : list F) : nat :=
  let fix go (n : nat) : nat :=
    match n with
    | O => O
    | S i => if negb (feqb A (nth i totals f0) f0) then i else go i
    end in
  go (List.length totals).

(** tex/box.go:378-394 setGlue; the log message of an over- or underfull box is
    modelled in Warn.v. *)
Definition set_glue (g : gset) (x : F) (sign : Z) (totals : list F) : gset :=
  let o := determine_order totals in
  if negb (feqb A (nth o totals f0) f0)
  then mk_gset (x / nth o totals f0) sign o (gs_ratio g)
  else mk_gset (gs_set g) 0 o f0.

(** tex/box.go:542-552 and 638-649: the glue after packing, [x] = requested
    minus natural size *)
Definition pack_glue (g : gset) (x : F) (d : dims) : gset :=
  if feqb A x f0 then mk_gset (gs_set g) 0 0 f0
  else if fltb A f0 x then set_glue g x 1 (d_stretch d)
  else set_glue g x (-1) (d_shrink d).

(** tex/box.go:506-553 HPack *)
Definition hpack (width : F) (additional : bool) (t : tnode) : tnode :=
  match t with
  | TL k b sh g l =>
    let d := fold_left (fun d x => hpack_dims x d) l dims0 in
    let w := if additional then width + d_w d else width in
    TL k (mk_box (b_size b) w (d_h d) (d_d d)) sh (pack_glue g (w - d_w d) d) l
  | _ => t
  end.

(** The loop of VPack, stopping at the first panic. *)
Fixpoint vfold (l : list tnode) (d : dims) : lres dims :=
  match l with
  | [] => LOk d
  | x :: l' => match vpack_dims x d with LOk d' => vfold l' d' | LPanic e => LPanic e end
  end.

(** tex/box.go:601-650 VPack *)
Definition vpack (height : F) (additional : bool) (lim : F) (t : tnode) : lres tnode :=
  match t with
  | TL k b sh g l =>
    match vfold l dims0 with
    | LOk d =>
      let x := if fltb A lim (d_d d) then d_h d + (d_d d - lim) else d_h d in
      let dep := if fltb A lim (d_d d) then lim else d_d d in
      let h := if additional then height + x else height in
      LOk (TL k (mk_box (b_size b) (d_w d) h dep) sh (pack_glue g (h - x) d) l)
    | LPanic e => LPanic e
    end
  | _ => LOk t
  end.

(** tex/box.go:359-363 ListOf with the kind of the wrapper *)
Definition list_of (k : lkind) (l : list tnode) : tnode := TL k (new_box f0 f0 f0) f0 gset0 l.

Section WithBackend.
Context {S : Type}.
Variable be : backend S.
Notation M := (M S).
Notation "x <- m ;; k" := (mbind m (fun x => k)) (at level 100, m at next level, right associativity).

(** tex/box.go:204-217 Char.updateMetrics applied in NewChar (192-202) *)
Definition new_char (c : string) (st : state) (math : bool) : M tchar :=
  m <- be_metrics be c (st_font st) (st_dpi st) math ;;
  mret (mk_char c 0 (if String.eqb c " " then m_adv m else m_width m) (m_iceberg m)
          (- (m_iceberg m - m_height m)) m (st_font st) (st_dpi st) math).

(** tex/box.go:295-303 Accent.updateMetrics *)
Definition acc_update (c : tchar) : M tchar :=
  m <- be_metrics be (c_sym c) (c_font c) (c_dpi c) (c_math c) ;;
  mret (mk_char (c_sym c) (c_size c) (m_xmax m - m_xmin m) (m_ymax m - m_ymin m) f0 m
          (c_font c) (c_dpi c) (c_math c)).

(** tex/box.go:281-293 NewAccent *)
Definition new_accent (c : string) (st : state) (math : bool) : M tchar :=
  acc_update (mk_char c 0 f0 f0 f0 (mk_metrics f0 f0 f0 f0 f0 f0 f0 f0 false) (st_font st) (st_dpi st) math).

(** tex/box.go:221-231 Char.Kerning (306: Accent the same); [next] is None for
    the nil node.  All other nodes have kerning 0. *)
Definition kerning (t : tnode) (next : option tnode) : M F :=
  match t with
  | TChar c | TAccent c =>
    let adv := m_adv (c_metrics c) - c_width c in
    k <- match next with
         | Some (TChar n) | Some (TAccent n) =>
           be_kern be (c_font c) (c_sym c) (c_font n) (c_sym n) (c_dpi c)
         | _ => mret f0
         end ;;
    mret (adv + k)
  | _ => mret f0
  end.

(** tex/box.go:476-504 HList.kern *)
Fixpoint kern_list (l : list tnode) : M (list tnode) :=
  match l with
  | [] => mret []
  | x :: l' =>
    dist <- kerning x (hd_error l') ;;
    r <- kern_list l' ;;
    mret (if negb (feqb A dist f0) then x :: new_kern dist :: r else x :: r)
  end.

(** tex/box.go:461-474 HListOf *)
Definition hlist_of (l : list tnode) (do_kern : bool) : M tnode :=
  l' <- (if do_kern then kern_list l else mret l) ;;
  mret (hpack f0 true (list_of KHList l')).

(** tex/box.go:590-599 VListOf *)
Definition vlist_of (l : list tnode) : M tnode :=
  match vpack f0 true (fpinf A) (list_of KVList l) with
  | LOk t => mret t
  | LPanic e => mpanic e
  end.

(** tex/box.go:833-842 HCentered *)
Definition hcentered (l : list tnode) : M tnode := hlist_of (glue_ss :: l ++ [glue_ss]) false.
(** tex/box.go:844-852 VCentered *)
Definition vcentered (l : list tnode) : M tnode := vlist_of (glue_ss :: l ++ [glue_ss]).

(** tex/box.go:733-743 HRule *)
Definition hrule (st : state) (thickness : F) : M tnode :=
  t <- (if fltb A thickness f0 then be_underline be (st_font st) (st_dpi st) else mret thickness) ;;
  mret (new_rule (fpinf A) (frat 1 2 * t) (frat 1 2 * t)).
(** tex/box.go:745-749 VRule *)
Definition vrule (st : state) : M tnode :=
  t <- be_underline be (st_font st) (st_dpi st) ;;
  mret (new_rule t (fpinf A) (fpinf A)).

(** ** Scaling *)
Definition scale_font (f : F) (ft : font) : font := mk_font (f_name ft) (f_type ft) (f_size ft * f).
Definition scale_box (f : F) (b : box) : box :=
  mk_box (b_size b) (b_width b * f) (b_height b * f) (b_depth b * f).
Definition scale_char (f : F) (c : tchar) : tchar :=
  mk_char (c_sym c) (c_size c) (c_width c * f) (c_height c * f) (c_depth c * f) (c_metrics c)
    (scale_font f (c_font c)) (c_dpi c) (c_math c).
Definition box_size (n : Z) (b : box) : box := mk_box n (b_width b) (b_height b) (b_depth b).
Definition char_size (n : Z) (c : tchar) : tchar :=
  mk_char (c_sym c) n (c_width c) (c_height c) (c_depth c) (c_metrics c) (c_font c) (c_dpi c) (c_math c).

(** tex/box.go:113-120 Box.Shrink, 122-127 Box.Grow *)
Definition box_shrink (b : box) : box :=
  let n := (b_size b - 1)%Z in
  if (n <? num_size_levels)%Z then scale_box shrink_factor (box_size n b) else box_size n b.
Definition box_grow (b : box) : box := scale_box grow_factor (box_size (b_size b + 1)%Z b).
(** tex/box.go:233-241 Char.Shrink, 243-249 Char.Grow *)
Definition char_shrink (c : tchar) : tchar :=
  let n := (c_size c - 1)%Z in
  if (n <? num_size_levels)%Z then scale_char shrink_factor (char_size n c) else char_size n c.
Definition char_grow (c : tchar) : tchar := scale_char grow_factor (char_size (c_size c + 1)%Z c).

(** Monadic map, left to right. *)
Definition mmap {X Y} (f : X -> M Y) : list X -> M (list Y) :=
  fix go (l : list X) : M (list Y) :=
    match l with
    | [] => mret []
    | x :: l' => y <- f x ;; r <- go l' ;; mret (y :: r)
    end.

(** The Shrink methods (tex/box.go:113, 233, 308-311, 400-409, 796-801, 874-879
    and the wrappers) *)
Fixpoint shrink (t : tnode) : M tnode :=
  match t with
  | TBox b => mret (TBox (box_shrink b))
  | TRule b => mret (TRule (box_shrink b))
  | TChar c => mret (TChar (char_shrink c))
  | TAccent c => c' <- acc_update (char_shrink c) ;; mret (TAccent c')
  | TGlue g =>
    let n := (g_size g - 1)%Z in
    mret (TGlue (mk_glue n (if (n <? num_size_levels)%Z then g_width g * shrink_factor else g_width g)
      (g_stretch g) (g_stretch_order g) (g_shrink g) (g_shrink_order g)))
  | TKern s w =>
    let n := (s - 1)%Z in
    mret (TKern n (if (n <? num_size_levels)%Z then w * shrink_factor else w))
  | TL k b sh g l =>
    l' <- mmap shrink l ;;
    let b' := box_shrink b in
    mret (if (b_size b' <? num_size_levels)%Z
          then TL k b' (sh * shrink_factor) (mk_gset (gs_set g * shrink_factor) (gs_sign g) (gs_order g) (gs_ratio g)) l'
          else TL k b' sh g l')
  end.

(** The Grow methods (tex/box.go:122, 243, 313-316, 411-418, 803-806, 881-884
    and the wrappers) *)
Fixpoint grow (t : tnode) : M tnode :=
  match t with
  | TBox b => mret (TBox (box_grow b))
  | TRule b => mret (TRule (box_grow b))
  | TChar c => mret (TChar (char_grow c))
  | TAccent c => c' <- acc_update (char_grow c) ;; mret (TAccent c')
  | TGlue g =>
    mret (TGlue (mk_glue (g_size g + 1) (g_width g * grow_factor)
      (g_stretch g) (g_stretch_order g) (g_shrink g) (g_shrink_order g)))
  | TKern s w => mret (TKern (s + 1) (w * grow_factor))
  | TL k b sh g l =>
    l' <- mmap grow l ;;
    mret (TL k (box_grow b) (sh * grow_factor)
            (mk_gset (gs_set g * grow_factor) (gs_sign g) (gs_order g) (gs_ratio g)) l')
  end.

(** tex/box.go:913-957 AutoHeightChar.  There is one alternative, so the loop
    builds the character once and its break has no effect. *)
Definition auto_height_char (c : string) (height depth : F) (st : state) (factor : F) : M tnode :=
  _ <- be_xheight be (st_font st) (st_dpi st) ;;
  ch <- new_char c st true ;;
  cs <- (if negb (String.eqb (f_name (st_font st)) "") then
           let factor := if feqb A factor f0 then (height + depth) / (c_height ch + c_depth ch) else factor in
           let st' := mk_state (scale_font factor (st_font st)) (st_dpi st) in
           ch' <- new_char c st' true ;;
           mret (ch', depth - c_depth ch')
         else mret (ch, f0)) ;;
  t <- hlist_of [TChar (fst cs)] true ;;
  mret (set_shift (snd cs) t).

End WithBackend.
End Box.

Arguments be_kern {A S}. Arguments be_metrics {A S}. Arguments be_xheight {A S}. Arguments be_underline {A S}.
Notation "x <- m ;; k" := (mbind m (fun x => k)) (at level 100, m at next level, right associativity).
