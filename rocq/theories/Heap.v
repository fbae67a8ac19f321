(** The layout code with nodes as mutable objects: tex/box.go and mtex/parser.go once
    more, where a node is a pointer and Shrink, Grow, HPack, VPack, SetShift and Ship
    change objects in place.  Box.v, Ship.v and Mtex.v model the same functions on trees
    that are not shared; PropHeap.v shows when and why that is right. *)
From Coq Require Import ZArith String Ascii List Bool.
From Verif Require Import Utf8 Token Ast SymTable SetTable MtexTable Parser Symbols Arith Box Ship Mtex.
Import ListNotations.
Local Open Scope string_scope.
Local Open Scope list_scope.
Local Open Scope Z_scope.

(** A pointer to a node. *)
Definition loc : Type := nat.

Section Heap.
Context {A : arith} {S : Type}.
Notation F := (Arith.F A).
Notation tnode := (@Box.tnode A).
Notation state := (@Box.state A).
Local Open Scope F.

(** An object: a node without children, or a list (tex/box.go:346-357) with pointers to
    its children.  Slices of children are never written to (ListOf copies its argument,
    kern makes a new slice), so they are values. *)
Inductive cell : Type :=
  | CLeaf (t : tnode)
  | CList (k : lkind) (b : @box A) (shift : F) (g : @gset A) (l : list loc).
(** The objects allocated so far; pointers are indices. *)
Definition heap : Type := list cell.
(** An object's own fields, as the node without its children. *)
Definition flat (c : cell) : tnode := match c with CLeaf t => t | CList k b sh g _ => TL k b sh g [] end.

(** A program: the accesses it makes to the heap, one at a time, and the calls it makes
    to its font backend, whose state [S] is its own.  [PSize] asks for the number of
    objects; it only serves to bound recursions (see [h_shrink]). *)
Inductive prog (X : Type) : Type :=
  | PRet (x : X)
  | PPanic (e : string)
  | PRead (a : loc) (k : cell -> prog X)
  | PWrite (a : loc) (c : cell) (k : prog X)
  | PAlloc (c : cell) (k : loc -> prog X)
  | PSize (k : nat -> prog X)
  | PCall (Y : Type) (m : M S Y) (k : Y -> prog X).
Arguments PRet {X}. Arguments PPanic {X}. Arguments PRead {X}. Arguments PWrite {X}. Arguments PAlloc {X}.
Arguments PSize {X}. Arguments PCall {X Y}.
Notation HM := prog.
Fixpoint pbind {X Y} (p : prog X) (f : X -> prog Y) : prog Y :=
  match p with
  | PRet x => f x
  | PPanic e => PPanic e
  | PRead a k => PRead a (fun c => pbind (k c) f)
  | PWrite a c k => PWrite a c (pbind k f)
  | PAlloc c k => PAlloc c (fun a => pbind (k a) f)
  | PSize k => PSize (fun n => pbind (k n) f)
  | PCall m k => PCall m (fun y => pbind (k y) f)
  end.
Notation "x <~ m ;; k" := (pbind m (fun x => k)) (at level 100, m at next level, right associativity).
Definition pmap {X Y} (f : X -> prog Y) : list X -> prog (list Y) :=
  fix go (l : list X) : prog (list Y) :=
    match l with [] => PRet [] | x :: l' => y <~ f x ;; r <~ go l' ;; PRet (y :: r) end.
Definition pfold {X V} (f : X -> V -> prog V) : list X -> V -> prog V :=
  fix go (l : list X) (v : V) : prog V :=
    match l with [] => PRet v | x :: l' => v' <~ f x v ;; go l' v' end.

Fixpoint update (a : loc) (c : cell) (h : heap) : heap :=
  match h, a with
  | [], _ => []
  | _ :: h', O => c :: h'
  | x :: h', Datatypes.S a' => x :: update a' c h'
  end.
(** A program that runs alone. *)
Definition bad_addr : string := "invalid memory address".
Fixpoint run {X} (p : prog X) (h : heap) (s : S) : lres (X * (heap * S)) :=
  match p with
  | PRet x => LOk (x, (h, s))
  | PPanic e => LPanic e
  | PRead a k => match nth_error h a with Some c => run (k c) h s | None => LPanic bad_addr end
  | PWrite a c k => run k (update a c h) s
  | PAlloc c k => run (k (length h)) (h ++ [c]) s
  | PSize k => run (k (length h)) h s
  | PCall m k => match m s with LOk (y, s') => run (k y) h s' | LPanic e => LPanic e end
  end.

Definition read (a : loc) : HM cell := PRead a PRet.
Definition write (a : loc) (c : cell) : HM unit := PWrite a c (PRet tt).
Definition alloc (c : cell) : HM loc := PAlloc c PRet.
(** The font backend does not see the nodes. *)
Definition call {X} (m : M S X) : HM X := PCall m PRet.
(** A node's own fields, read through the pointer. *)
Definition look (a : loc) : HM tnode := c <~ read a ;; PRet (flat c).
Definition new (t : tnode) : HM loc := alloc (CLeaf t).

Variable be : @backend A S.

(** tex/box.go:588 SetShift *)
Definition h_set_shift (s : F) (a : loc) : HM unit :=
  c <~ read a ;;
  match c with CList k b _ g l => write a (CList k b s g l) | CLeaf _ => PRet tt end.

(** tex/box.go:506-553 HPack, 601-650 VPack: they read the fields of the children and
    write those of the list (computed as in Box.v). *)
Definition h_kids (l : list loc) : HM (list tnode) := pmap look l.
Definition put (a : loc) (t : tnode) (l : list loc) : HM unit :=
  match t with TL k b sh g _ => write a (CList k b sh g l) | _ => PRet tt end.
Definition h_hpack (width : F) (additional : bool) (a : loc) : HM unit :=
  c <~ read a ;;
  match c with
  | CList k b sh g l => xs <~ h_kids l ;; put a (hpack width additional (TL k b sh g xs)) l
  | CLeaf _ => PRet tt
  end.
Definition h_vpack (height : F) (additional : bool) (lim : F) (a : loc) : HM unit :=
  c <~ read a ;;
  match c with
  | CList k b sh g l => xs <~ h_kids l ;; t <~ call (mlift (vpack height additional lim (TL k b sh g xs))) ;; put a t l
  | CLeaf _ => PRet tt
  end.

(** tex/box.go:476-504 HList.kern *)
Fixpoint h_kern_list (l : list loc) : HM (list loc) :=
  match l with
  | [] => PRet []
  | a :: l' =>
    x <~ look a ;;
    next <~ match l' with [] => PRet None | b :: _ => y <~ look b ;; PRet (Some y) end ;;
    dist <~ call (kerning be x next) ;;
    if negb (feqb A dist f0) then
      k <~ new (new_kern dist) ;; r <~ h_kern_list l' ;; PRet (a :: k :: r)
    else r <~ h_kern_list l' ;; PRet (a :: r)
  end.

(** tex/box.go:461-474 HListOf (the list is allocated after the kerns here, which
    nobody can see), 590-599 VListOf, 833-842 HCentered *)
Definition h_list_of (k : lkind) (l : list loc) : HM loc := alloc (CList k (new_box f0 f0 f0) f0 gset0 l).
Definition h_hlist_of (l : list loc) (do_kern : bool) : HM loc :=
  l' <~ (if do_kern then h_kern_list l else PRet l) ;;
  a <~ h_list_of KHList l' ;;
  _ <~ h_hpack f0 true a ;;
  PRet a.
Definition h_vlist_of (l : list loc) : HM loc :=
  a <~ h_list_of KVList l ;;
  _ <~ h_vpack f0 true (fpinf A) a ;;
  PRet a.
Definition h_hcentered (l : list loc) : HM loc :=
  g1 <~ new glue_ss ;; g2 <~ new glue_ss ;; h_hlist_of (g1 :: l ++ [g2]) false.

(** The Shrink and Grow methods, through pointers.  A node without children is scaled
    as in Box.v.  [n] bounds the recursion: Go recurses as deep as the chain of pointers
    goes, for ever if it is cyclic. *)
Definition scale_list (f : F) (k : lkind) (b : @box A) (sh : F) (g : @gset A) (l : list loc) : cell :=
  CList k b (sh * f) (mk_gset (gs_set g * f) (gs_sign g) (gs_order g) (gs_ratio g)) l.
Definition miter (f : loc -> HM unit) : list loc -> HM unit :=
  fix go (l : list loc) : HM unit := match l with [] => PRet tt | a :: l' => _ <~ f a ;; go l' end.
Fixpoint h_shrink_n (n : nat) (a : loc) : HM unit :=
  match n with
  | O => PPanic "stack overflow"
  | Datatypes.S n' =>
    c <~ read a ;;
    match c with
    | CLeaf t => t' <~ call (shrink be t) ;; write a (CLeaf t')
    | CList _ _ _ _ l =>
      _ <~ miter (h_shrink_n n') l ;;
      c <~ read a ;;
      match c with
      | CList k b sh g l =>
        let b' := box_shrink b in
        if (b_size b' <? num_size_levels)%Z then write a (scale_list shrink_factor k b' sh g l)
        else write a (CList k b' sh g l)
      | CLeaf _ => PRet tt
      end
    end
  end.
Fixpoint h_grow_n (n : nat) (a : loc) : HM unit :=
  match n with
  | O => PPanic "stack overflow"
  | Datatypes.S n' =>
    c <~ read a ;;
    match c with
    | CLeaf t => t' <~ call (grow be t) ;; write a (CLeaf t')
    | CList _ _ _ _ l =>
      _ <~ miter (h_grow_n n') l ;;
      c <~ read a ;;
      match c with
      | CList k b sh g l => write a (scale_list grow_factor k (box_grow b) sh g l)
      | CLeaf _ => PRet tt
      end
    end
  end.
(** No chain of different objects is longer than the heap. *)
Definition h_shrink (a : loc) : HM unit := PSize (fun n => h_shrink_n n a).
Definition h_grow (a : loc) : HM unit := PSize (fun n => h_grow_n n a).

(** tex/box.go:913-957 AutoHeightChar *)
Definition h_auto_height_char (c : string) (height depth : F) (st : state) (factor : F) : HM loc :=
  _ <~ call (be_xheight be (st_font st) (st_dpi st)) ;;
  ch <~ call (new_char be c st true) ;;
  cs <~ (if negb (String.eqb (f_name (st_font st)) "") then
           let factor := if feqb A factor f0 then (height + depth) / (c_height ch + c_depth ch) else factor in
           let st' := mk_state (scale_font factor (st_font st)) (st_dpi st) in
           ch' <~ call (new_char be c st' true) ;;
           PRet (ch', depth - c_depth ch')
         else PRet (ch, f0)) ;;
  p <~ new (TChar (fst cs)) ;;
  t <~ h_hlist_of [p] true ;;
  _ <~ h_set_shift (snd cs) t ;;
  PRet t.

(** ** mtex/parser.go; see Mtex.v for the line numbers of each function *)
Variable range : Symbols.gset -> list string.
Variable parse_float : string -> option F.
Variable expr : string.

Definition h_make_space (st : state) (pct : F) : HM loc :=
  k <~ call (make_space be st pct) ;; new k.

Definition h_handle_symbol (sym : string) (pos : Z) (st : state) (math : bool) : HM loc :=
  ch <~ call (new_char be sym st math) ;;
  ch <~ new (TChar ch) ;;
  if is_spaced range sym then
    before <~ call (mlift (obool_lres "slice bounds out of range" (slice expr 0 pos))) ;;
    let prev := prev_of before in
    if set_has (new_set BinaryOperators_list) sym &&
       (String.eqb prev "{" || set_has (new_set LeftDelim_list) prev)
    then PRet ch
    else
      k1 <~ h_make_space st (frat 1 5) ;;
      k2 <~ h_make_space st (frat 1 5) ;;
      h_hlist_of [k1; ch; k2] true
  else if set_has (new_set PunctuationSymbols_list) sym then
    if String.eqb sym "." then
      after <~ call (mlift (obool_lres "slice bounds out of range" (slice expr pos (zlen expr)))) ;;
      let pos := index_dot after 0 in
      if ((0 <? pos)%Z && digit_at expr (pos - 1)) && ((pos <? zlen expr - 1)%Z && digit_at expr (pos + 1))
      then PRet ch
      else k <~ h_make_space st (frat 1 5) ;; h_hlist_of [ch; k] true
    else PPanic "not implemented"
  else PRet ch.

Definition h_handle_space (name : string) (st : state) : HM loc :=
  match assoc name space_width with
  | Some (n, d) => h_make_space st (frat n d)
  | None => PPanic "could not find a width"
  end.

Definition h_handle_custom_space (args : list node) (st : state) : HM loc :=
  match args with
  | NArg _ (NLit _ arg :: _) _ :: _ =>
    match parse_float arg with
    | Some v => h_make_space st v
    | None => PPanic "could not parse customspace"
    end
  | NArg _ [] _ :: _ | [] => PPanic "index out of range"
  | _ => PPanic "interface conversion"
  end.

Definition h_new_chars (s : string) (st : state) (math : bool) : HM (list loc) :=
  pmap (fun x => c <~ call (new_char be x st math) ;; new (TChar c)) (rune_strings s).

Definition h_handle_function (name : string) (st : state) (math : bool) : HM loc :=
  nodes <~ h_new_chars (sdrop 1 name) (set_type "rm" st) math ;;
  h_hlist_of nodes true.

Definition h_auto_sized_delimiter (left : string) (middle : loc) (right : string) (st : state) : HM loc :=
  mid <~ look middle ;;
  let height := fmax A f0 (t_height mid) in
  let depth := fmax A f0 (t_depth mid) in
  let factor := f0 in
  l <~ (if negb (String.eqb left ".") then
          ahc <~ h_auto_height_char left height depth st factor ;; PRet [ahc]
        else PRet []) ;;
  r <~ (if negb (String.eqb right ".") then
          ahc <~ h_auto_height_char right height depth st factor ;; PRet [ahc]
        else PRet []) ;;
  h_hlist_of (l ++ middle :: r) true.

Definition h_hrule (st : state) (thickness : F) : HM loc := r <~ call (hrule be st thickness) ;; new r.

Definition h_genfrac (ldelim rdelim : string) (rule : F) (sty : style) (num den : loc) (st : state) : HM loc :=
  thickness <~ call (be_underline be (st_font st) (st_dpi st)) ;;
  _ <~ match sty with DisplayStyle => PRet tt | TextStyle => h_shrink num end ;;
  _ <~ match sty with DisplayStyle => PRet tt | TextStyle => h_shrink den end ;;
  cnum <~ h_hcentered [num] ;;
  cden <~ h_hcentered [den] ;;
  n <~ look num ;;
  d <~ look den ;;
  let width := fmax A (t_width n) (t_width d) in
  _ <~ h_hpack width false cnum ;;
  _ <~ h_hpack width false cden ;;
  bar <~ h_hrule st rule ;;
  v1 <~ new (vbox f0 (thickness * fofZ A 2)) ;;
  v2 <~ new (vbox f0 (thickness * fofZ A 2)) ;;
  vlist <~ h_vlist_of [cnum; v1; bar; v2; cden] ;;
  m <~ call (be_metrics be "=" (st_font (set_type "it" st)) (st_dpi st) true) ;;
  cd <~ look cden ;;
  let shift := t_height cd - ((m_ymax m + m_ymin m) / fofZ A 2 - fofZ A 3 * thickness) in
  _ <~ h_set_shift shift vlist ;;
  sp <~ new (hbox (fofZ A 2 * thickness)) ;;
  bx <~ h_hlist_of [vlist; sp] true ;;
  if negb (String.eqb ldelim "") || negb (String.eqb rdelim "") then
    h_auto_sized_delimiter (if String.eqb ldelim "" then "." else ldelim) bx
      (if String.eqb rdelim "" then "." else rdelim) st
  else PRet bx.

(** The visitor; its nodes are pointers *)
Record h_visitor : Type := mk_hv { hv_nodes : list loc; hv_state : state; hv_math : bool }.
Definition h_push (t : loc) (v : h_visitor) : h_visitor := mk_hv (hv_nodes v ++ [t]) (hv_state v) (hv_math v).

Definition h_handle_list (walk : node -> h_visitor -> HM h_visitor) (l : list node) (st : state) (math : bool) : HM loc :=
  v <~ pfold walk l (mk_hv [] st math) ;;
  h_hlist_of (hv_nodes v) true.

Definition h_handle_frac_args (walk : node -> h_visitor -> HM h_visitor) (ld rd : string) (rule : F) (sty : style)
    (args : list node) (st : state) (math : bool) : HM loc :=
  match args with
  | NArg _ l1 _ :: NArg _ l2 _ :: _ =>
    num <~ h_handle_list walk l1 st math ;;
    den <~ h_handle_list walk l2 st math ;;
    h_genfrac ld rd rule sty num den st
  | [] | [NArg _ _ _] => PPanic "index out of range"
  | _ => PPanic "interface conversion"
  end.
Definition h_handle_frac (walk : node -> h_visitor -> HM h_visitor) (sty : style)
    (args : list node) (st : state) (math : bool) : HM loc :=
  thickness <~ call (be_underline be (st_font st) (st_dpi st)) ;;
  h_handle_frac_args walk "" "" thickness sty args st math.
Definition h_handle_binom (walk : node -> h_visitor -> HM h_visitor)
    (args : list node) (st : state) (math : bool) : HM loc :=
  h_handle_frac_args walk "(" ")" f0 TextStyle args st math.

Definition h_sqrt_box (root : option loc) (body : loc) (st : state) : HM loc :=
  thickness <~ call (be_underline be (st_font st) (st_dpi st)) ;;
  bd <~ look body ;;
  let height := t_height bd - t_shift bd + fofZ A 5 * thickness in
  let depth := t_depth bd + t_shift bd in
  check <~ h_auto_height_char "\__sqrt__" height depth st f0 ;;
  ck <~ look check ;;
  let height := t_height ck - t_shift ck in
  let depth := t_depth ck + t_shift ck in
  s1 <~ new (hbox (fofZ A 2 * thickness)) ;;
  s2 <~ new (hbox (fofZ A 2 * thickness)) ;;
  padded <~ h_hlist_of [s1; body; s2] true ;;
  bar <~ h_hrule st (fopp A f1) ;;
  fill <~ new glue_fill ;;
  rhs <~ h_vlist_of [bar; fill; padded] ;;
  _ <~ h_vpack (height + (f_size (st_font st) * st_dpi st) / fofZ A 1200) false depth rhs ;;
  root <~ match root with
          | None => new (hbox (t_width ck * frat 1 2))
          | Some r => _ <~ h_shrink r ;; _ <~ h_shrink r ;; PRet r
          end ;;
  inner <~ h_hlist_of [root] true ;;
  vl <~ h_vlist_of [inner] ;;
  _ <~ h_set_shift ((- height) * frat 3 5) vl ;;
  kern <~ new (new_kern ((- t_width ck) * frat 1 2)) ;;
  h_hlist_of [vl; kern; check; rhs] true.

Definition h_handle_sqrt (walk : node -> h_visitor -> HM h_visitor)
    (args : list node) (st : state) (math : bool) : HM loc :=
  match args with
  | [NOptArg _ l1 _; NArg _ l2 _] =>
    root <~ h_handle_list walk l1 st math ;;
    body <~ h_handle_list walk l2 st math ;;
    h_sqrt_box (Some root) body st
  | [NOptArg _ l1 _; _] =>
    _ <~ h_handle_list walk l1 st math ;;
    PPanic "interface conversion"
  | [NArg _ l _] =>
    body <~ h_handle_list walk l st math ;;
    h_sqrt_box None body st
  | [_] | [_; _] => PPanic "interface conversion"
  | _ => PPanic "invalid sqrt"
  end.

Definition h_overline_box (body : loc) (st : state) : HM loc :=
  thickness <~ call (be_underline be (st_font st) (st_dpi st)) ;;
  bd <~ look body ;;
  let height := t_height bd - t_shift bd + fofZ A 3 * thickness in
  let depth := t_depth bd + t_shift bd in
  bar <~ h_hrule st (fopp A f1) ;;
  fill <~ new glue_fill ;;
  inner <~ h_hlist_of [body] true ;;
  rhs <~ h_vlist_of [bar; fill; inner] ;;
  _ <~ h_vpack (height + (f_size (st_font st) * st_dpi st) / fofZ A 1200) false depth rhs ;;
  h_hlist_of [rhs] true.

Definition h_handle_overline (walk : node -> h_visitor -> HM h_visitor)
    (args : list node) (st : state) (math : bool) : HM loc :=
  match args with
  | NArg _ l _ :: _ => body <~ h_handle_list walk l st math ;; h_overline_box body st
  | [] => PPanic "index out of range"
  | _ => PPanic "interface conversion"
  end.

Definition h_handle_macro (walk : node -> h_visitor -> HM h_visitor) (h : hkind) (pos : Z) (name : string)
    (args : list node) (st : state) (math : bool) : HM loc :=
  match h with
  | HSpace => h_handle_space name st
  | HSymbol => h_handle_symbol name pos st math
  | HCustom => h_handle_custom_space args st
  | HFunction => h_handle_function name st math
  | HFrac | HTFrac => h_handle_frac walk TextStyle args st math
  | HDFrac => h_handle_frac walk DisplayStyle args st math
  | HBinom => h_handle_binom walk args st math
  | HSqrt => h_handle_sqrt walk args st math
  | HOverline => h_handle_overline walk args st math
  end.

Definition h_handle_sym (h : hkind) (pos : Z) (text : string) (st : state) (math : bool) : HM loc :=
  match h with
  | HSpace => h_handle_space text st
  | HSymbol => h_handle_symbol text pos st math
  | _ => PPanic "interface conversion"
  end.

Fixpoint h_go (w : bool) (n : node) (v : h_visitor) : HM h_visitor :=
  match n with
  | NNil => if w then PPanic "nil node" else PRet v
  | NList l => if w then pfold (h_go true) l v else PRet v
  | NSym pos text =>
    if hv_math v then
      h <~ call (mlift (handler range text)) ;;
      match h with
      | None => PPanic ("no handler for symbol [" ++ text ++ "]")%string
      | Some h => t <~ h_handle_sym h pos text (hv_state v) (hv_math v) ;; PRet (h_push t v)
      end
    else c <~ call (new_char be text (hv_state v) (hv_math v)) ;; t <~ new (TChar c) ;; PRet (h_push t v)
  | NWord _ text =>
    nodes <~ h_new_chars text (hv_state v) (hv_math v) ;;
    t <~ h_hlist_of nodes true ;;
    PRet (h_push t v)
  | NLit _ text =>
    pfold (fun x v => t <~ h_handle_symbol x 0 (hv_state v) (hv_math v) ;; PRet (h_push t v)) (rune_strings text) v
  | NMath _ _ l _ =>
    v' <~ pfold (h_go false) l (mk_hv (hv_nodes v) (set_type "it" (hv_state v)) true) ;;
    PRet (mk_hv (hv_nodes v') (set_type (f_type (st_font (hv_state v))) (hv_state v')) (hv_math v))
  | NMacro None _ => PPanic "macro with nil identifier"
  | NMacro (Some (pos, name)) args =>
    h <~ call (mlift (handler range name)) ;;
    match h with
    | None => PPanic "unknown macro"
    | Some h => t <~ h_handle_macro (h_go true) h pos name args (hv_state v) (hv_math v) ;; PRet (h_push t v)
    end
  | NArg _ _ _ | NOptArg _ _ _ | NIdent _ _ | NSub _ _ | NSup _ _ => PPanic "unknown ast node"
  end.

Definition h_typeset (l : list node) (size dpi : F) : HM loc :=
  v <~ h_go true (NList l) (mk_hv [] (mk_state (mk_font "default" "rm" size) dpi) false) ;;
  h_hlist_of (hv_nodes v) true.

End Heap.
Arguments cell : clear implicits. Arguments heap : clear implicits.
Arguments CLeaf {A}. Arguments CList {A}.
Arguments prog : clear implicits.
Arguments PRet {A S X}. Arguments PPanic {A S X}. Arguments PRead {A S X}. Arguments PWrite {A S X}. Arguments PAlloc {A S X}.
Arguments PSize {A S X}. Arguments PCall {A S X Y}.
Notation "x <~ m ;; k" := (pbind m (fun x => k)) (at level 100, m at next level, right associativity).

(** ** tex/box.go:959-1170 Ship, through pointers.  The fields that Go reads again after a
    nested call (a node's width and depth, the enclosing list's glue ratio, height, depth
    and width) are read again here; vlistOut writes the width of nested lists. *)
Section HeapShip.
Context {A : arith}.
Notation F := (Arith.F A).
Notation tnode := (@Box.tnode A).
Notation ship := (@Ship.ship A).
Notation HM := (prog A ship).
Local Open Scope F.
Variables ox oy : F.

Definition modify (f : ship -> ship) : HM unit := call (fun st => LOk (tt, f st)).
Definition cur : HM ship := call (fun st => LOk (st, st)).
(** One glue node (box.go:1036-1049, 1125-1138): the order and the sign were read when the
    list was entered, the ratio is read now. *)
Definition h_glue_step (sign : Z) (order : nat) (a : loc) (g : @glue A) (curG : Z) (curGlue : F) : HM (F * Z * F) :=
  bx <~ look a ;; PRet (glue_step (mk_gset (gs_set (t_glue bx)) sign order f0) g curG curGlue).

Section Rec.
Variable rec : bool -> loc -> HM unit.

(** box.go:1001-1075: the node [p] in the horizontal list [a] *)
Definition h_hstep (a : loc) (sign : Z) (order : nat) (base : F) (p : loc) (curG : Z) (curGlue : F) : HM (Z * F) :=
  c <~ read p ;;
  match c with
  | CLeaf (TChar c) =>
    _ <~ modify (fun st => set_h (s_h st + c_width c) (render_char (s_h st + ox) (s_v st + oy) c st)) ;; PRet (curG, curGlue)
  | CLeaf (TAccent c) =>
    _ <~ modify (fun st => set_h (s_h st + c_width c) (render_accent (s_h st + ox) (s_v st + oy) c st)) ;; PRet (curG, curGlue)
  | CLeaf (TKern _ w) => _ <~ modify (fun st => set_h (s_h st + w) st) ;; PRet (curG, curGlue)
  | CList ((KHList | KVList) as k) b _ _ [] => _ <~ modify (fun st => set_h (s_h st + b_width b) st) ;; PRet (curG, curGlue)
  | CList ((KHList | KVList) as k) _ sh _ _ =>
    st <~ cur ;;
    let edge := s_h st in
    _ <~ modify (set_v (base + sh)) ;;
    _ <~ rec (is_vlist k) p ;;
    x <~ look p ;;
    _ <~ modify (fun st => set_v base (set_h (edge + t_width x) st)) ;;
    PRet (curG, curGlue)
  | CLeaf (TGlue g) =>
    r <~ h_glue_step sign order a g curG curGlue ;;
    let '(w, G, T) := r in
    _ <~ modify (fun st => set_h (s_h st + w) st) ;; PRet (G, T)
  | _ =>
    x <~ look p ;;
    bx <~ look a ;;
    let h := if finf A (t_height x) then t_height bx else t_height x in
    let d := if finf A (t_depth x) then t_depth bx else t_depth x in
    let w := t_width x in
    _ <~ (if fltb A f0 h && fltb A f0 w then
            match c with
            | CLeaf (TRule _) =>
              _ <~ modify (set_v (base + d)) ;;
              _ <~ modify (fun st => render_rect (s_h st + ox) (s_v st + oy) w h st) ;;
              modify (set_v base)
            | _ => PPanic msg_render
            end
          else PRet tt) ;;
    _ <~ modify (fun st => set_h (s_h st + w) st) ;;
    PRet (curG, curGlue)
  end.

(** box.go:1094-1167: the node [p] in the vertical list [a] *)
Definition h_vstep (a : loc) (sign : Z) (order : nat) (left : F) (p : loc) (curG : Z) (curGlue : F) : HM (Z * F) :=
  c <~ read p ;;
  match c with
  | CLeaf (TKern _ w) => _ <~ modify (fun st => set_v (s_v st + w) st) ;; PRet (curG, curGlue)
  | CList ((KHList | KVList) as k) b _ _ [] =>
    _ <~ modify (fun st => set_v (s_v st + (b_height b + b_depth b)) st) ;; PRet (curG, curGlue)
  | CList ((KHList | KVList) as k) b sh g l =>
    _ <~ modify (fun st => set_v (s_v st + b_height b) st) ;;
    _ <~ modify (set_h (left + sh)) ;;
    st <~ cur ;;
    let cur_v := s_v st in
    bx <~ look a ;;
    _ <~ write p (CList k (box_width (t_width bx) b) sh g l) ;;
    _ <~ rec (is_vlist k) p ;;
    x <~ look p ;;
    _ <~ modify (set_v (cur_v + t_depth x)) ;;
    _ <~ modify (set_h left) ;;
    PRet (curG, curGlue)
  | CLeaf (TGlue g) =>
    r <~ h_glue_step sign order a g curG curGlue ;;
    let '(w, G, T) := r in
    _ <~ modify (fun st => set_v (s_v st + w) st) ;; PRet (G, T)
  | CLeaf (TChar _) => PPanic "tex: Char node found in vlist"
  | CLeaf (TAccent _) => PPanic "tex: Accent node found in vlist"
  | _ =>
    x <~ look p ;;
    bx <~ look a ;;
    let w := if finf A (t_width x) then t_width bx else t_width x in
    let h := t_height x + t_depth x in
    _ <~ (if fltb A f0 h && fltb A f0 (t_depth x) then
            _ <~ modify (fun st => set_v (s_v st + h) st) ;;
            match c with
            | CLeaf (TRule _) => modify (fun st => render_rect (s_h st + ox) (s_v st + oy) w h st)
            | _ => PRet tt
            end
          else PRet tt) ;;
    PRet (curG, curGlue)
  end.

(** The loop over the children. *)
Definition h_loop (step : loc -> Z -> F -> HM (Z * F)) : list loc -> Z -> F -> HM unit :=
  fix go (l : list loc) (curG : Z) (curGlue : F) : HM unit :=
    match l with
    | [] => PRet tt
    | p :: l' => r <~ step p curG curGlue ;; go l' (fst r) (snd r)
    end.
End Rec.

(** box.go:988-1078 hlistOut, 1080-1170 vlistOut; [n] bounds the recursion *)
Fixpoint h_ship_n (n : nat) (vert : bool) (a : loc) : HM unit :=
  match n with
  | O => PPanic "stack overflow"
  | Datatypes.S n' =>
    c <~ read a ;;
    match c with
    | CList _ b _ g l =>
      _ <~ modify Ship.push ;;
      st <~ cur ;;
      _ <~ (if vert then modify (fun st => set_v (s_v st - b_height b) st) else PRet tt) ;;
      _ <~ h_loop ((if vert then h_vstep (h_ship_n n') a (gs_sign g) (gs_order g) (s_h st)
                    else h_hstep (h_ship_n n') a (gs_sign g) (gs_order g) (s_v st))) l 0%Z f0 ;;
      modify Ship.pop
    | CLeaf _ => PRet tt
    end
  end.
End HeapShip.

(** A program with a state of its own, inside one with state [S]. *)
Fixpoint local {A : arith} {S T X : Type} (p : prog A T X) (st : T) : prog A S (X * T) :=
  match p with
  | PRet x => PRet (x, st)
  | PPanic e => PPanic e
  | PRead a k => PRead a (fun c => local (k c) st)
  | PWrite a c k => PWrite a c (local k st)
  | PAlloc c k => PAlloc c (fun a => local (k a) st)
  | PSize k => PSize (fun n => local (k n) st)
  | PCall m k => match m st with LOk (y, st') => local (k y) st' | LPanic e => PPanic e end
  end.

(** box.go:978-986 Ship.Call: the state of the traversal *)
Definition h_ship_call {A : arith} {S : Type} (ox oy : Arith.F A) (a : loc) : prog A S (@Ship.ship A) :=
  x <~ look a ;;
  PSize (fun n => r <~ local (h_ship_n ox (fadd A oy (t_height x)) n false a) (mk_ship 0 0 f0 f0 []) ;; PRet (snd r)).

(** mtex/parser.go:23-26, 45-63 Parse (see Mtex.mtex_parse) *)
Definition h_mtex_parse {A : arith} {S : Type} (uni_letter : Z -> bool) (range : Symbols.gset -> list string)
    (be : @backend A S) (parse_float : string -> option (Arith.F A))
    (expr : string) (size dpi : Arith.F A) : prog A S (loc * option string) :=
  match parse_expr uni_letter expr with
  | OutOfFuel => PPanic "no result"
  | Panic _ => PPanic "latex"
  | Ok l => a <~ h_typeset be range parse_float expr l size dpi ;; PRet (a, None)
  end.
