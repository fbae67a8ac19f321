(** Typesetting with what it writes to the standard logger.  The only log call below
    mtex.Parse is the one at the end of setGlue (tex/box.go:391), so this is Mtex.v with
    the packing functions replaced by ones that also give their log lines (Warn.v).
    Backend calls write nothing (font/ttf and internal/fakebackend have no log call;
    another backend's own log lines are not counted). *)
From Coq Require Import ZArith String Ascii List Bool.
From Verif Require Import Utf8 Token Ast SymTable SetTable MtexTable Parser Symbols Arith Box Warn Mtex.
Import ListNotations.
Local Open Scope string_scope.
Local Open Scope list_scope.
Local Open Scope Z_scope.

(** A call: its result (Box.M), and the log lines written until it returns or panics. *)
Definition W (S X : Type) : Type := S -> lres (X * S) * list string.
Definition wret {S X} (x : X) : W S X := fun s => (LOk (x, s), []).
Definition wbind {S X Y} (m : W S X) (k : X -> W S Y) : W S Y :=
  fun s => match m s with
           | (LOk (x, s'), w) => let r := k x s' in (fst r, w ++ snd r)
           | (LPanic e, w) => (LPanic e, w)
           end.
(** A call that writes nothing. *)
Definition quiet {S X} (m : M S X) : W S X := fun s => (m s, []).
(** log.Printf *)
Definition say {S} (w : list string) : W S unit := fun s => (LOk (tt, s), w).
Notation "x <-- m ;; k" := (wbind m (fun x => k)) (at level 100, m at next level, right associativity).

Section LogMtex.
Context {A : arith}.
Context {S : Type}.
Notation F := (Arith.F A).
Notation W := (W S).
Notation tnode := (@Box.tnode A).
Notation state := (@Box.state A).
Notation visitor := (@Mtex.visitor A).
Variable range : Symbols.gset -> list string.
Variable be : @backend A S.
Variable parse_float : string -> option F.
Variable expr : string.
Local Open Scope F.

(** tex/box.go:506-553 HPack *)
Definition w_hpack (width : F) (additional : bool) (t : tnode) : W tnode :=
  _ <-- say (hpack_log width additional t) ;; wret (hpack width additional t).
(** tex/box.go:601-650 VPack *)
Definition w_vpack (height : F) (additional : bool) (lim : F) (t : tnode) : W tnode :=
  _ <-- say (vpack_log height additional lim t) ;; quiet (mlift (vpack height additional lim t)).
(** tex/box.go:461-474 HListOf *)
Definition w_hlist_of (l : list tnode) (do_kern : bool) : W tnode :=
  l' <-- quiet (if do_kern then kern_list be l else mret l) ;;
  w_hpack f0 true (list_of KHList l').
(** tex/box.go:590-599 VListOf *)
Definition w_vlist_of (l : list tnode) : W tnode := w_vpack f0 true (fpinf A) (list_of KVList l).
(** tex/box.go:833-842 HCentered *)
Definition w_hcentered (l : list tnode) : W tnode := w_hlist_of (glue_ss :: l ++ [glue_ss]) false.
(** tex/box.go:913-957 AutoHeightChar (see Box.auto_height_char) *)
Definition w_auto_height_char (c : string) (height depth : F) (st : state) (factor : F) : W tnode :=
  _ <-- quiet (be_xheight be (st_font st) (st_dpi st)) ;;
  ch <-- quiet (new_char be c st true) ;;
  cs <-- (if negb (String.eqb (f_name (st_font st)) "") then
            let factor := if feqb A factor f0 then (height + depth) / (c_height ch + c_depth ch) else factor in
            let st' := mk_state (scale_font factor (st_font st)) (st_dpi st) in
            ch' <-- quiet (new_char be c st' true) ;;
            wret (ch', depth - c_depth ch')
          else wret (ch, f0)) ;;
  t <-- w_hlist_of [TChar (fst cs)] true ;;
  wret (set_shift (snd cs) t).

(** mtex/parser.go:184-240 handleSymbol *)
Definition w_symbol (sym : string) (pos : Z) (st : state) (math : bool) : W tnode :=
  ch <-- quiet (new_char be sym st math) ;;
  if is_spaced range sym then
    before <-- quiet (mlift (obool_lres "slice bounds out of range" (slice expr 0 pos))) ;;
    let prev := prev_of before in
    if set_has (new_set BinaryOperators_list) sym &&
       (String.eqb prev "{" || set_has (new_set LeftDelim_list) prev)
    then wret (TChar ch)
    else
      k1 <-- quiet (make_space be st (frat 1 5)) ;;
      k2 <-- quiet (make_space be st (frat 1 5)) ;;
      w_hlist_of [k1; TChar ch; k2] true
  else if set_has (new_set PunctuationSymbols_list) sym then
    if String.eqb sym "." then
      after <-- quiet (mlift (obool_lres "slice bounds out of range" (slice expr pos (zlen expr)))) ;;
      let pos := index_dot after 0 in
      if ((0 <? pos)%Z && digit_at expr (pos - 1)) && ((pos <? zlen expr - 1)%Z && digit_at expr (pos + 1))
      then wret (TChar ch)
      else k <-- quiet (make_space be st (frat 1 5)) ;; w_hlist_of [TChar ch; k] true
    else quiet (mpanic "not implemented")
  else wret (TChar ch).

(** parser.go:288-297 handleFunction *)
Definition w_function (name : string) (st : state) (math : bool) : W tnode :=
  nodes <-- quiet (new_chars be (sdrop 1 name) (set_type "rm" st) math) ;;
  w_hlist_of nodes true.

(** parser.go:519-547 autoSizedDelimiter *)
Definition w_delimited (left : string) (middle : tnode) (right : string) (st : state) : W tnode :=
  let height := fmax A f0 (t_height middle) in
  let depth := fmax A f0 (t_depth middle) in
  let factor := f0 in
  l <-- (if negb (String.eqb left ".") then
           ahc <-- w_auto_height_char left height depth st factor ;; wret [ahc]
         else wret []) ;;
  r <-- (if negb (String.eqb right ".") then
           ahc <-- w_auto_height_char right height depth st factor ;; wret [ahc]
         else wret []) ;;
  w_hlist_of (l ++ middle :: r) true.

(** parser.go:359-402 genfrac *)
Definition w_genfrac (ldelim rdelim : string) (rule : F) (sty : style) (num den : tnode) (st : state) : W tnode :=
  thickness <-- quiet (be_underline be (st_font st) (st_dpi st)) ;;
  num <-- quiet (match sty with DisplayStyle => mret num | TextStyle => shrink be num end) ;;
  den <-- quiet (match sty with DisplayStyle => mret den | TextStyle => shrink be den end) ;;
  cnum <-- w_hcentered [num] ;;
  cden <-- w_hcentered [den] ;;
  let width := fmax A (t_width num) (t_width den) in
  cnum <-- w_hpack width false cnum ;;
  cden <-- w_hpack width false cden ;;
  bar <-- quiet (hrule be st rule) ;;
  vlist <-- w_vlist_of
              [cnum; vbox f0 (thickness * fofZ A 2); bar; vbox f0 (thickness * fofZ A 2); cden] ;;
  m <-- quiet (be_metrics be "=" (st_font (set_type "it" st)) (st_dpi st) true) ;;
  let shift := t_height cden - ((m_ymax m + m_ymin m) / fofZ A 2 - fofZ A 3 * thickness) in
  let vlist := set_shift shift vlist in
  bx <-- w_hlist_of [vlist; hbox (fofZ A 2 * thickness)] true ;;
  if negb (String.eqb ldelim "") || negb (String.eqb rdelim "") then
    w_delimited (if String.eqb ldelim "" then "." else ldelim) bx
      (if String.eqb rdelim "" then "." else rdelim) st
  else wret bx.

(** A loop over nodes. *)
Definition w_fold {X V} (f : X -> V -> W V) : list X -> V -> W V :=
  fix go (l : list X) (v : V) : W V :=
    match l with [] => wret v | x :: l' => v' <-- f x v ;; go l' v' end.

(** parser.go:133-137 handleNode of an ast.List *)
Definition w_list (walk : node -> visitor -> W visitor) (l : list node) (st : state) (math : bool) : W tnode :=
  v <-- w_fold walk l (mk_visitor [] st math) ;;
  w_hlist_of (v_nodes v) true.

(** parser.go:299-357 handleFrac, handleDFrac, handleTFrac, handleBinom *)
Definition w_frac_args (walk : node -> visitor -> W visitor) (ld rd : string) (rule : F) (sty : style)
    (args : list node) (st : state) (math : bool) : W tnode :=
  match args with
  | NArg _ l1 _ :: NArg _ l2 _ :: _ =>
    num <-- w_list walk l1 st math ;;
    den <-- w_list walk l2 st math ;;
    w_genfrac ld rd rule sty num den st
  | [] | [NArg _ _ _] => quiet (mpanic "index out of range")
  | _ => quiet (mpanic "interface conversion")
  end.
Definition w_frac (walk : node -> visitor -> W visitor) (sty : style)
    (args : list node) (st : state) (math : bool) : W tnode :=
  thickness <-- quiet (be_underline be (st_font st) (st_dpi st)) ;;
  w_frac_args walk "" "" thickness sty args st math.
Definition w_binom (walk : node -> visitor -> W visitor)
    (args : list node) (st : state) (math : bool) : W tnode :=
  w_frac_args walk "(" ")" f0 TextStyle args st math.

(** parser.go:430-480: handleSqrt after its arguments are set *)
Definition w_sqrt_box (root : option tnode) (body : tnode) (st : state) : W tnode :=
  thickness <-- quiet (be_underline be (st_font st) (st_dpi st)) ;;
  let height := t_height body - t_shift body + fofZ A 5 * thickness in
  let depth := t_depth body + t_shift body in
  check <-- w_auto_height_char "\__sqrt__" height depth st f0 ;;
  let height := t_height check - t_shift check in
  let depth := t_depth check + t_shift check in
  padded <-- w_hlist_of [hbox (fofZ A 2 * thickness); body; hbox (fofZ A 2 * thickness)] true ;;
  bar <-- quiet (hrule be st (fopp A f1)) ;;
  rhs <-- w_vlist_of [bar; glue_fill; padded] ;;
  rhs <-- w_vpack (height + (f_size (st_font st) * st_dpi st) / fofZ A 1200) false depth rhs ;;
  root <-- quiet (match root with
                  | None => mret (hbox (t_width check * frat 1 2))
                  | Some r => r1 <- shrink be r ;; shrink be r1
                  end) ;;
  inner <-- w_hlist_of [root] true ;;
  vl <-- w_vlist_of [inner] ;;
  let vl := set_shift ((- height) * frat 3 5) vl in
  w_hlist_of [vl; new_kern ((- t_width check) * frat 1 2); check; rhs] true.

(** parser.go:404-428 handleSqrt *)
Definition w_sqrt (walk : node -> visitor -> W visitor)
    (args : list node) (st : state) (math : bool) : W tnode :=
  match args with
  | [NOptArg _ l1 _; NArg _ l2 _] =>
    root <-- w_list walk l1 st math ;;
    body <-- w_list walk l2 st math ;;
    w_sqrt_box (Some root) body st
  | [NOptArg _ l1 _; _] =>
    _ <-- w_list walk l1 st math ;;
    quiet (mpanic "interface conversion")
  | [NArg _ l _] =>
    body <-- w_list walk l st math ;;
    w_sqrt_box None body st
  | [_] | [_; _] => quiet (mpanic "interface conversion")
  | _ => quiet (mpanic "invalid sqrt")
  end.

(** parser.go:490-507: handleOverline after its argument is set *)
Definition w_overline_box (body : tnode) (st : state) : W tnode :=
  thickness <-- quiet (be_underline be (st_font st) (st_dpi st)) ;;
  let height := t_height body - t_shift body + fofZ A 3 * thickness in
  let depth := t_depth body + t_shift body in
  bar <-- quiet (hrule be st (fopp A f1)) ;;
  inner <-- w_hlist_of [body] true ;;
  rhs <-- w_vlist_of [bar; glue_fill; inner] ;;
  rhs <-- w_vpack (height + (f_size (st_font st) * st_dpi st) / fofZ A 1200) false depth rhs ;;
  w_hlist_of [rhs] true.

(** parser.go:483-508 handleOverline *)
Definition w_overline (walk : node -> visitor -> W visitor)
    (args : list node) (st : state) (math : bool) : W tnode :=
  match args with
  | NArg _ l _ :: _ => body <-- w_list walk l st math ;; w_overline_box body st
  | [] => quiet (mpanic "index out of range")
  | _ => quiet (mpanic "interface conversion")
  end.

(** parser.go:121 *)
Definition w_macro (walk : node -> visitor -> W visitor) (h : hkind) (pos : Z) (name : string)
    (args : list node) (st : state) (math : bool) : W tnode :=
  match h with
  | HSpace => quiet (handle_space be name st)
  | HSymbol => w_symbol name pos st math
  | HCustom => quiet (handle_custom_space be parse_float args st)
  | HFunction => w_function name st math
  | HFrac | HTFrac => w_frac walk TextStyle args st math
  | HDFrac => w_frac walk DisplayStyle args st math
  | HBinom => w_binom walk args st math
  | HSqrt => w_sqrt walk args st math
  | HOverline => w_overline walk args st math
  end.

(** parser.go:82 *)
Definition w_sym (h : hkind) (pos : Z) (text : string) (st : state) (math : bool) : W tnode :=
  match h with
  | HSpace => quiet (handle_space be text st)
  | HSymbol => w_symbol text pos st math
  | _ => quiet (mpanic "interface conversion")
  end.

(** parser.go:72-131 Visit and ast/walk.go:20-70 Walk (see Mtex.go) *)
Fixpoint w_go (w : bool) (n : node) (v : visitor) : W visitor :=
  match n with
  | NNil => if w then quiet (mpanic "nil node") else wret v
  | NList l => if w then w_fold (w_go true) l v else wret v
  | NSym pos text =>
    if v_math v then
      h <-- quiet (mlift (handler range text)) ;;
      match h with
      | None => quiet (mpanic ("no handler for symbol [" ++ text ++ "]")%string)
      | Some h => t <-- w_sym h pos text (v_state v) (v_math v) ;; wret (push t v)
      end
    else c <-- quiet (new_char be text (v_state v) (v_math v)) ;; wret (push (TChar c) v)
  | NWord _ text =>
    nodes <-- quiet (new_chars be text (v_state v) (v_math v)) ;;
    t <-- w_hlist_of nodes true ;;
    wret (push t v)
  | NLit _ text =>
    w_fold (fun x v => t <-- w_symbol x 0 (v_state v) (v_math v) ;; wret (push t v)) (rune_strings text) v
  | NMath _ _ l _ =>
    v' <-- w_fold (w_go false) l (mk_visitor (v_nodes v) (set_type "it" (v_state v)) true) ;;
    wret (mk_visitor (v_nodes v') (set_type (f_type (st_font (v_state v))) (v_state v')) (v_math v))
  | NMacro None _ => quiet (mpanic "macro with nil identifier")
  | NMacro (Some (pos, name)) args =>
    h <-- quiet (mlift (handler range name)) ;;
    match h with
    | None => quiet (mpanic "unknown macro")
    | Some h => t <-- w_macro (w_go true) h pos name args (v_state v) (v_math v) ;; wret (push t v)
    end
  | NArg _ _ _ | NOptArg _ _ _ | NIdent _ _ | NSub _ _ | NSup _ _ => quiet (mpanic "unknown ast node")
  end.

(** parser.go:45-63 parse *)
Definition w_typeset (l : list node) (size dpi : F) : W tnode :=
  v <-- w_go true (NList l) (mk_visitor [] (mk_state (mk_font "default" "rm" size) dpi) false) ;;
  w_hlist_of (v_nodes v) true.
End LogMtex.

(** parser.go:23-26, 45-63 Parse: its result and its log lines.  latex.ParseExpr writes
    nothing. *)
Definition parse_log {A : arith} {S : Type} (uni_letter : Z -> bool) (range : Symbols.gset -> list string)
    (be : @backend A S) (parse_float : string -> option (Arith.F A))
    (expr : string) (size dpi : Arith.F A) (s : S) : option (lres ((@tnode A * option string) * S)) * list string :=
  match parse_expr uni_letter expr with
  | OutOfFuel => (None, [])
  | Panic _ => (Some (LPanic "latex"), [])
  | Ok l => let r := (t <-- w_typeset range be parse_float expr l size dpi ;; wret (t, None)) s in (Some (fst r), snd r)
  end.
