(** Model of mtex/parser.go and the table of mtex/macros.go. *)
From Coq Require Import ZArith String Ascii List Bool.
From Verif Require Import Utf8 Token Ast SymTable SetTable MtexTable Parser Symbols Arith Box.
Import ListNotations.
Local Open Scope string_scope.
Local Open Scope list_scope.
Local Open Scope Z_scope.

(** parser.go:242-256 spaceWidth: the constants as fractions *)
Definition space_width : list (string * (Z * Z)) := [
  ("\,", (16667, 100000)); ("\thinspace", (16667, 100000)); ("\/", (16667, 100000));
  ("\>", (22222, 100000)); ("\:", (22222, 100000)); ("\;", (27778, 100000));
  ("\ ", (33333, 100000)); ("~", (33333, 100000)); ("\enspace", (1, 2));
  ("\quad", (1, 1)); ("\qquad", (2, 1)); ("\!", (-16667, 100000))].

(** parser.go:175-182 init: the keys of p.macros.  A key with a nil handler
    counts ([_, ok := p.macros[name]]). *)
Definition has_macro (name : string) : bool :=
  existsb (String.eqb name) mtex_macros ||
  match name with
  | String "\" k => match assoc k tex2uni with Some _ => true | None => false end
  | _ => false
  end.

(** The functions returned by parser.handler. *)
Inductive hkind : Type :=
  HSpace | HSymbol | HCustom | HFunction | HFrac | HDFrac | HTFrac | HBinom | HSqrt | HOverline.

(** string(x) for each rune x of a string ([for _, x := range text],
    parser.go:88,94,293): the decoded runes, re-encoded *)
Definition rune_strings (s : string) : list string := map (fun c => encode_rune (c_rune c)) (chars s).

(** parser.go:567-573 isdigit *)
Definition isdigit (a : ascii) : bool := in_range 48 57 (byte a).

(** parser.go:202-208: [prev].  strings.LastIndexFunc(s, r != ' ') is the start
    of the last rune that is not a space.  Simplification: the last byte of that
    rune is used instead of the first; they differ only for multi-byte runes,
    where both give a non-ASCII string, which no set contains. *)
Fixpoint last_nonspace (s : string) (acc : option ascii) : option ascii :=
  match s with
  | EmptyString => acc
  | String a s' => last_nonspace s' (if Ascii.eqb a " " then acc else Some a)
  end.
Definition prev_of (s : string) : string :=
  match last_nonspace s None with Some a => encode_rune (byte a) | None => "" end.

(** strings.Index(s, ".") (standard library): -1 if absent *)
Fixpoint index_dot (s : string) (i : Z) : Z :=
  match s with
  | EmptyString => -1
  | String a s' => if Ascii.eqb a "." then i else index_dot s' (i + 1)
  end.

(** s[i] for an index known to be in range *)
Definition digit_at (s : string) (i : Z) : bool :=
  match String.get (Z.to_nat i) s with Some a => isdigit a | None => false end.

Definition obool_lres (msg : string) (o : option string) : lres string :=
  match o with Some s => LOk s | None => LPanic msg end.

Section Mtex.
Context {A : arith}.
Context {S : Type}.
Notation F := (Arith.F A).
Notation M := (@M S).
Notation tnode := (@Box.tnode A).
Notation state := (@Box.state A).
Variable range : Symbols.gset -> list string.             (* Go map iteration order *)
Variable be : @backend A S.
Variable parse_float : string -> option F.        (* strconv.ParseFloat(s, 64), None on error *)
Variable expr : string.                           (* parser.expr *)
Local Open Scope F.

Definition set_type (t : string) (st : state) : state :=
  mk_state (mk_font (f_name (st_font st)) t (f_size (st_font st))) (st_dpi st).

Definition mlift {X} (r : lres X) : M X :=
  match r with LOk x => mret x | LPanic e => mpanic e end.

(** parser.go:139-173 handler; [name[1:]] panics on the empty string *)
Definition handler (name : string) : lres (option hkind) :=
  if match assoc name space_width with Some _ => true | None => false end then LOk (Some HSpace)
  else if is_spaced range name || set_has (new_set PunctuationSymbols_list) name then LOk (Some HSymbol)
  else if String.eqb name "\hspace" then LOk (Some HCustom)
  else match name with
  | EmptyString => LPanic "slice bounds out of range"
  | String _ tl =>
    if set_has (new_set FunctionNames_list) tl then LOk (Some HFunction)
    else if String.eqb name "\frac" then LOk (Some HFrac)
    else if String.eqb name "\dfrac" then LOk (Some HDFrac)
    else if String.eqb name "\tfrac" then LOk (Some HTFrac)
    else if String.eqb name "\binom" then LOk (Some HBinom)
    else if String.eqb name "\sqrt" then LOk (Some HSqrt)
    else if String.eqb name "\overline" then LOk (Some HOverline)
    else if has_macro name then LOk (Some HSymbol)
    else LOk None
  end.

(** parser.go:510-517 makeSpace; 558-565 rcparams("mathtext.default") is "it" *)
Definition make_space (st : state) (pct : F) : M tnode :=
  m <- be_metrics be "m" (mk_font "it" "it" (f_size (st_font st))) (st_dpi st) true ;;
  mret (new_kern (m_adv m * pct)).

(** parser.go:184-240 handleSymbol, for a node with text (macro name) [sym] at
    [pos].  [len(strings.Split(..)) == 0] never holds, as strings.Split with a
    non-empty separator returns at least one string. *)
Definition handle_symbol (sym : string) (pos : Z) (st : state) (math : bool) : M tnode :=
  ch <- new_char be sym st math ;;
  if is_spaced range sym then
    before <- mlift (obool_lres "slice bounds out of range" (slice expr 0 pos)) ;;
    let prev := prev_of before in
    if set_has (new_set BinaryOperators_list) sym &&
       (String.eqb prev "{" || set_has (new_set LeftDelim_list) prev)
    then mret (TChar ch)
    else
      k1 <- make_space st (frat 1 5) ;;
      k2 <- make_space st (frat 1 5) ;;
      hlist_of be [k1; TChar ch; k2] true
  else if set_has (new_set PunctuationSymbols_list) sym then
    if String.eqb sym "." then
      after <- mlift (obool_lres "slice bounds out of range" (slice expr pos (zlen expr))) ;;
      let pos := index_dot after 0 in
      if ((0 <? pos)%Z && digit_at expr (pos - 1)) && ((pos <? zlen expr - 1)%Z && digit_at expr (pos + 1))
      then mret (TChar ch)
      else k <- make_space st (frat 1 5) ;; hlist_of be [TChar ch; k] true
    else mpanic "not implemented"
  else mret (TChar ch).

(** parser.go:258-276 handleSpace *)
Definition handle_space (name : string) (st : state) : M tnode :=
  match assoc name space_width with
  | Some (n, d) => make_space st (frat n d)
  | None => mpanic "could not find a width"
  end.

(** parser.go:278-286 handleCustomSpace: the type assertions and indexings panic *)
Definition handle_custom_space (args : list node) (st : state) : M tnode :=
  match args with
  | NArg _ (NLit _ arg :: _) _ :: _ =>
    match parse_float arg with
    | Some v => make_space st v
    | None => mpanic "could not parse customspace"
    end
  | NArg _ [] _ :: _ | [] => mpanic "index out of range"
  | _ => mpanic "interface conversion"
  end.

(** A list of NewChar nodes (the loops of parser.go:88-90, 293-295) *)
Definition new_chars (s : string) (st : state) (math : bool) : M (list tnode) :=
  mmap (fun x => c <- new_char be x st math ;; mret (TChar c)) (rune_strings s).

(** parser.go:288-297 handleFunction *)
Definition handle_function (name : string) (st : state) (math : bool) : M tnode :=
  nodes <- new_chars (sdrop 1 name) (set_type "rm" st) math ;;
  hlist_of be nodes true.

(** parser.go:519-547 autoSizedDelimiter with a one-element middle *)
Definition auto_sized_delimiter (left : string) (middle : tnode) (right : string) (st : state) : M tnode :=
  let height := fmax A f0 (t_height middle) in
  let depth := fmax A f0 (t_depth middle) in
  let factor := f0 in
  l <- (if negb (String.eqb left ".") then
          ahc <- auto_height_char be left height depth st factor ;; mret [ahc]
        else mret []) ;;
  r <- (if negb (String.eqb right ".") then
          ahc <- auto_height_char be right height depth st factor ;; mret [ahc]
        else mret []) ;;
  hlist_of be (l ++ middle :: r) true.

(** parser.go:549-556 *)
Inductive style : Type := DisplayStyle | TextStyle.

(** parser.go:359-402 genfrac *)
Definition genfrac (ldelim rdelim : string) (rule : F) (sty : style) (num den : tnode) (st : state) : M tnode :=
  thickness <- be_underline be (st_font st) (st_dpi st) ;;
  num <- match sty with DisplayStyle => mret num | TextStyle => shrink be num end ;;
  den <- match sty with DisplayStyle => mret den | TextStyle => shrink be den end ;;
  cnum <- hcentered be [num] ;;
  cden <- hcentered be [den] ;;
  let width := fmax A (t_width num) (t_width den) in
  let cnum := hpack width false cnum in
  let cden := hpack width false cden in
  bar <- hrule be st rule ;;
  vlist <- vlist_of
             [cnum; vbox f0 (thickness * fofZ A 2); bar; vbox f0 (thickness * fofZ A 2); cden] ;;
  m <- be_metrics be "=" (st_font (set_type "it" st)) (st_dpi st) true ;;
  let shift := t_height cden - ((m_ymax m + m_ymin m) / fofZ A 2 - fofZ A 3 * thickness) in
  let vlist := set_shift shift vlist in
  bx <- hlist_of be [vlist; hbox (fofZ A 2 * thickness)] true ;;
  if negb (String.eqb ldelim "") || negb (String.eqb rdelim "") then
    auto_sized_delimiter (if String.eqb ldelim "" then "." else ldelim) bx
      (if String.eqb rdelim "" then "." else rdelim) st
  else mret bx.

(** The visitor (parser.go:65-70) *)
Record visitor : Type := mk_visitor { v_nodes : list tnode; v_state : state; v_math : bool }.
Definition push (t : tnode) (v : visitor) : visitor :=
  mk_visitor (v_nodes v ++ [t]) (v_state v) (v_math v).

(** A loop over nodes. *)
Definition mfold {X V} (f : X -> V -> M V) : list X -> V -> M V :=
  fix go (l : list X) (v : V) : M V :=
    match l with [] => mret v | x :: l' => v' <- f x v ;; go l' v' end.

(** parser.go:133-137 handleNode of an ast.List, whose Walk calls Visit on the
    list (no effect) and walks its elements with [walk] *)
Definition handle_list (walk : node -> visitor -> M visitor) (l : list node) (st : state) (math : bool) : M tnode :=
  v <- mfold walk l (mk_visitor [] st math) ;;
  hlist_of be (v_nodes v) true.

(** The common part of handleFrac, handleDFrac, handleTFrac and handleBinom
    (parser.go:299-357): the arguments, then genfrac. *)
Definition handle_frac_args (walk : node -> visitor -> M visitor) (ld rd : string) (rule : F) (sty : style)
    (args : list node) (st : state) (math : bool) : M tnode :=
  match args with
  | NArg _ l1 _ :: NArg _ l2 _ :: _ =>
    num <- handle_list walk l1 st math ;;
    den <- handle_list walk l2 st math ;;
    genfrac ld rd rule sty num den st
  | [] | [NArg _ _ _] => mpanic "index out of range"
  | _ => mpanic "interface conversion"
  end.

(** parser.go:299-316 handleFrac and 332-344 handleTFrac (text style), 318-330
    handleDFrac (display style) *)
Definition handle_frac (walk : node -> visitor -> M visitor) (sty : style)
    (args : list node) (st : state) (math : bool) : M tnode :=
  thickness <- be_underline be (st_font st) (st_dpi st) ;;
  handle_frac_args walk "" "" thickness sty args st math.

(** parser.go:346-357 handleBinom *)
Definition handle_binom (walk : node -> visitor -> M visitor)
    (args : list node) (st : state) (math : bool) : M tnode :=
  handle_frac_args walk "(" ")" f0 TextStyle args st math.

(** parser.go:430-480: handleSqrt after its arguments are set *)
Definition sqrt_box (root : option tnode) (body : tnode) (st : state) : M tnode :=
  thickness <- be_underline be (st_font st) (st_dpi st) ;;
  let height := t_height body - t_shift body + fofZ A 5 * thickness in
  let depth := t_depth body + t_shift body in
  check <- auto_height_char be "\__sqrt__" height depth st f0 ;;
  let height := t_height check - t_shift check in
  let depth := t_depth check + t_shift check in
  padded <- hlist_of be [hbox (fofZ A 2 * thickness); body; hbox (fofZ A 2 * thickness)] true ;;
  bar <- hrule be st (fopp A f1) ;;
  rhs <- vlist_of [bar; glue_fill; padded] ;;
  rhs <- mlift (vpack (height + (f_size (st_font st) * st_dpi st) / fofZ A 1200) false depth rhs) ;;
  root <- match root with
          | None => mret (hbox (t_width check * frat 1 2))
          | Some r => r1 <- shrink be r ;; shrink be r1
          end ;;
  inner <- hlist_of be [root] true ;;
  vl <- vlist_of [inner] ;;
  let vl := set_shift ((- height) * frat 3 5) vl in
  hlist_of be [vl; new_kern ((- t_width check) * frat 1 2); check; rhs] true.

(** parser.go:404-428 handleSqrt *)
Definition handle_sqrt (walk : node -> visitor -> M visitor)
    (args : list node) (st : state) (math : bool) : M tnode :=
  match args with
  | [NOptArg _ l1 _; NArg _ l2 _] =>
    root <- handle_list walk l1 st math ;;
    body <- handle_list walk l2 st math ;;
    sqrt_box (Some root) body st
  | [NOptArg _ l1 _; _] =>                       (* the root is laid out first *)
    _ <- handle_list walk l1 st math ;;
    mpanic "interface conversion"
  | [NArg _ l _] =>
    body <- handle_list walk l st math ;;
    sqrt_box None body st
  | [_] | [_; _] => mpanic "interface conversion"
  | _ => mpanic "invalid sqrt"
  end.

(** parser.go:490-507: handleOverline after its argument is set *)
Definition overline_box (body : tnode) (st : state) : M tnode :=
  thickness <- be_underline be (st_font st) (st_dpi st) ;;
  let height := t_height body - t_shift body + fofZ A 3 * thickness in
  let depth := t_depth body + t_shift body in
  bar <- hrule be st (fopp A f1) ;;
  inner <- hlist_of be [body] true ;;
  rhs <- vlist_of [bar; glue_fill; inner] ;;
  rhs <- mlift (vpack (height + (f_size (st_font st) * st_dpi st) / fofZ A 1200) false depth rhs) ;;
  hlist_of be [rhs] true.

(** parser.go:483-508 handleOverline *)
Definition handle_overline (walk : node -> visitor -> M visitor)
    (args : list node) (st : state) (math : bool) : M tnode :=
  match args with
  | NArg _ l _ :: _ => body <- handle_list walk l st math ;; overline_box body st
  | [] => mpanic "index out of range"
  | _ => mpanic "interface conversion"
  end.

(** h.Handle for a macro node (parser.go:121) *)
Definition handle_macro (walk : node -> visitor -> M visitor) (h : hkind) (pos : Z) (name : string)
    (args : list node) (st : state) (math : bool) : M tnode :=
  match h with
  | HSpace => handle_space name st
  | HSymbol => handle_symbol name pos st math
  | HCustom => handle_custom_space args st
  | HFunction => handle_function name st math
  | HFrac | HTFrac => handle_frac walk TextStyle args st math
  | HDFrac => handle_frac walk DisplayStyle args st math
  | HBinom => handle_binom walk args st math
  | HSqrt => handle_sqrt walk args st math
  | HOverline => handle_overline walk args st math
  end.

(** h.Handle for a symbol node (parser.go:82); the other handlers start with
    node.( *ast.Macro) *)
Definition handle_sym (h : hkind) (pos : Z) (text : string) (st : state) (math : bool) : M tnode :=
  match h with
  | HSpace => handle_space text st
  | HSymbol => handle_symbol text pos st math
  | _ => mpanic "interface conversion"
  end.

(** parser.go:72-131 visitor.Visit ([w] = false), and ast.Walk of this visitor
    (ast/walk.go:20-70; [w] = true), in one recursion: Visit recurses directly
    into the list of a math expression, while macro arguments and lists are
    walked.  Visit returns nil after macros and math expressions, so Walk does
    not descend there; Word, Literal and Symbol have no children. *)
Fixpoint go (w : bool) (n : node) (v : visitor) : M visitor :=
  match n with
  | NNil => if w then mpanic "nil node" else mret v
  | NList l => if w then mfold (go true) l v else mret v
  | NSym pos text =>
    if v_math v then
      h <- mlift (handler text) ;;
      match h with
      | None => mpanic ("no handler for symbol [" ++ text ++ "]")%string
      | Some h => t <- handle_sym h pos text (v_state v) (v_math v) ;; mret (push t v)
      end
    else c <- new_char be text (v_state v) (v_math v) ;; mret (push (TChar c) v)
  | NWord _ text =>
    nodes <- new_chars text (v_state v) (v_math v) ;;
    t <- hlist_of be nodes true ;;
    mret (push t v)
  | NLit _ text =>
    mfold (fun x v => t <- handle_symbol x 0 (v_state v) (v_math v) ;; mret (push t v)) (rune_strings text) v
  | NMath _ _ l _ =>
    v' <- mfold (go false) l (mk_visitor (v_nodes v) (set_type "it" (v_state v)) true) ;;
    mret (mk_visitor (v_nodes v') (set_type (f_type (st_font (v_state v))) (v_state v')) (v_math v))
  | NMacro None _ => mpanic "macro with nil identifier"
  | NMacro (Some (pos, name)) args =>
    h <- mlift (handler name) ;;
    match h with
    | None => mpanic "unknown macro"
    | Some h => t <- handle_macro (go true) h pos name args (v_state v) (v_math v) ;; mret (push t v)
    end
  | NArg _ _ _ | NOptArg _ _ _ | NIdent _ _ | NSub _ _ | NSup _ _ => mpanic "unknown ast node"
  end.

(** parser.go:45-63 parse, after latex.ParseExpr returned the list [l]; the
    state is tex.NewState with the font of lines 52-56 *)
Definition typeset (l : list node) (size dpi : F) : M tnode :=
  v <- go true (NList l) (mk_visitor [] (mk_state (mk_font "default" "rm" size) dpi) false) ;;
  hlist_of be (v_nodes v) true.

End Mtex.

(** parser.go:23-26, 45-63 Parse.  latex.ParseExpr returns no error
    (parser.go:14-19 of the root package; theorem C05), so the error result is
    always nil: the value is (node, error).  [None] is a parser that did not
    terminate, which theorem C01 excludes. *)
Definition mtex_parse {A : arith} {S : Type} (uni_letter : Z -> bool) (range : Symbols.gset -> list string)
    (be : @backend A S) (parse_float : string -> option (Arith.F A))
    (expr : string) (size dpi : Arith.F A) (s : S) : option (lres ((@tnode A * option string) * S)) :=
  match parse_expr uni_letter expr with
  | OutOfFuel => None
  | Panic _ => Some (LPanic "latex")
  | Ok l => Some ((t <- typeset range be parse_float expr l size dpi ;; mret (t, None)) s)
  end.
