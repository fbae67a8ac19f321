(** Model of parser.go and macros.go. *)
From Coq Require Import ZArith String Ascii List Bool.
From Verif Require Import Utf8 GoScanner Token Lexer Ast MacroTable SymTable.
Import ListNotations.
Local Open Scope string_scope.
Local Open Scope Z_scope.

(** The ways ParseExpr panics. *)
Inductive pcode : Type :=
  | PUnhandled (r : Z)            (* scanner.go:151 *)
  | PUnknownMacro (name : string) (* parser.go:169 *)
  | PNilMacro                     (* parser.go:172 on the nil entry \genfrac *)
  | PExpected (want got : string) (* parser.go:68 *)
  | PBraceText                    (* parser.go:98 *)
  | POther (text : string)        (* parser.go:103 *)
  | PImpossible (k : kind).       (* parser.go:118 *)

(** Outcome of a Go call: a value, a panic, or (model only) exhausted fuel. *)
Inductive res (A : Type) : Type :=
  | Ok (a : A)
  | Panic (p : pcode)
  | OutOfFuel.
Arguments Ok {A}. Arguments Panic {A}. Arguments OutOfFuel {A}.

Definition bind {A B} (r : res A) (f : A -> res B) : res B :=
  match r with Ok a => f a | Panic p => Panic p | OutOfFuel => OutOfFuel end.
Notation "'let!' x := r 'in' e" := (bind r (fun x => e))
  (at level 200, x pattern, r at level 100, e at level 200).

(** Go map lookup in a literal table. *)
Fixpoint assoc {A} (k : string) (l : list (string * A)) : option A :=
  match l with
  | [] => None
  | (k', v) :: l' => if String.eqb k k' then Some v else assoc k l'
  end.

(** macros.go:18-340 addBuiltinMacros: the literal entries, then every
    tex2unicode name, prefixed by a backslash, that is not there already. *)
Definition lookup_macro (name : string) : option (option string) :=
  match assoc name builtin_macros with
  | Some v => Some v
  | None =>
    match name with
    | String "\" k => match assoc k tex2uni with Some _ => Some (Some "") | None => None end
    | _ => None
    end
  end.

(** parser.go:21-26 *)
Inductive mode : Type := Normal | MathMode.

(** parser.go:28-33 parser (the macro table is constant): scanner state,
    p.s.tok, p.state and, for p.s.sc.Peek(), the last lexeme's follow-up. *)
Record pst : Type := mk_ps { p_lex : lstate; p_tok : token; p_mode : mode }.

Definition set_mode (m : mode) (p : pst) : pst := mk_ps (p_lex p) (p_tok p) m.

(** s.sc.Peek() *)
Definition p_peek (p : pst) : Z := peek (l_rest (p_lex p)).

(** The kinds of closing conditions of the five loops of parser.go. *)
Inductive stop : Type :=
  | StopText (s : string)  (* parser.go:149-152 compares the token text *)
  | StopKind (k : kind)    (* parser.go:196-199, 224-227, 253-255, 283-285, 325-327 *)
  | StopNever.             (* parser.go:46-53 *)

Definition stops (s : stop) (t : token) : bool :=
  match s with
  | StopText x => String.eqb (t_text t) x
  | StopKind k => kind_beq (t_kind t) k
  | StopNever => false
  end.

Section WithLetters.
Variable uni_letter : Z -> bool.

(** p.s.Next(): scanner.go:46-49.  Returns whether the token is not EOF. *)
Definition snext (p : pst) : res (bool * pst) :=
  match lex1 uni_letter (p_lex p) with
  | LexPanic r => Panic (PUnhandled r)
  | LexOk x s =>
    Ok (negb (kind_beq (t_kind (x_tok x)) KEOF), mk_ps s (x_tok x) (p_mode p))
  end.

(** parser.go:58-63 next *)
Definition pnext (p : pst) : res (token * pst) :=
  let! (ok, p1) := snext p in
  if ok then Ok (p_tok p1, p1) else Ok (mk_tok KEOF 0 "", p1).

(** parser.go:65-70 expect *)
Definition expect (v : string) (p : pst) : res pst :=
  let! (_, p1) := pnext p in
  if String.eqb (t_text (p_tok p1)) v then Ok p1
  else Panic (PExpected v (t_text (p_tok p1))).

(** strings.ToLower on the ASCII signatures of macros.go:352 *)
Definition lower_ascii (a : ascii) : ascii :=
  let b := byte a in
  if in_range 65 90 b then zascii (b + 32) else a.

(** parser.go:72-337 and macros.go:343-363.  The five loops differ only in the
    stop condition; [parse_loop] returns the collected nodes and the position
    of the closing token (0, the zero value, if the input ended first).
    [fuel] bounds the recursion; see [parse_fuel]. *)
Fixpoint parse_node (fuel : nat) (tok : token) (p : pst) {struct fuel} : res (node * pst) :=
  match fuel with
  | O => OutOfFuel
  | S n =>
    match t_kind tok with
    | KComment => Ok (NNil, p)
    | KMacro =>                                   (* parser.go:165-173 *)
      match lookup_macro (t_text tok) with
      | None => Panic (PUnknownMacro (t_text tok))
      | Some None => Panic PNilMacro
      | Some (Some sig) =>                        (* macros.go:344-362 *)
        let name := (t_pos (p_tok p), t_text (p_tok p)) in
        let! (args, p1) := parse_args n sig p in
        Ok (NMacro (Some name) args, p1)
      end
    | KWord => Ok (NWord (t_pos tok) (t_text tok), p)      (* parser.go:175-180 *)
    | KNumber => Ok (NLit (t_pos tok) (t_text tok), p)     (* parser.go:182-187 *)
    | KSymbol =>
      if String.eqb (t_text tok) "$" then         (* parser.go:122-163 *)
        let old := p_mode p in
        let! (nodes, rt, p1) := parse_loop n (StopText "$") (set_mode MathMode p) in
        Ok (NMath (t_text tok) (t_pos tok) nodes rt, set_mode old p1)
      else if String.eqb (t_text tok) "^" then    (* parser.go:242-270 *)
        let! (x, p1) := parse_script n p in Ok (NSup (t_pos tok) x, p1)
      else if String.eqb (t_text tok) "_" then    (* parser.go:272-300 *)
        let! (x, p1) := parse_script n p in Ok (NSub (t_pos tok) x, p1)
      else Ok (NSym (t_pos tok) (t_text tok), p)  (* parser.go:302-307 *)
    | KLbrace =>
      match p_mode p with
      | MathMode =>                               (* parser.go:309-337 *)
        let! (nodes, _, p1) := parse_loop n (StopKind KRbrace) p in
        Ok (NList nodes, p1)
      | Normal => Panic PBraceText
      end
    | KOther => Panic (POther (t_text tok))
    | KSpace =>
      match p_mode p with
      | MathMode => Ok (NNil, p)
      | Normal => Ok (NSym (t_pos tok) (t_text tok), p)
      end
    | KLparen | KRparen | KLbrack | KRbrack => Ok (NSym (t_pos tok) (t_text tok), p)
    | k => Panic (PImpossible k)
    end
  end

(** parser.go:46-53, 147-160, 194-207, 222-235, 251-263, 281-293, 323-335 *)
with parse_loop (fuel : nat) (st : stop) (p : pst) {struct fuel}
  : res (list node * Z * pst) :=
  match fuel with
  | O => OutOfFuel
  | S n =>
    let! (ok, p1) := snext p in
    if ok then
      if stops st (p_tok p1) then Ok ([], t_pos (p_tok p1), p1)
      else
        let! (x, p2) := parse_node n (p_tok p1) p1 in
        let! (xs, r, p3) := parse_loop n st p2 in
        Ok (match x with NNil => xs | _ => x :: xs end, r, p3)
    else Ok ([], 0, p1)
  end

(** parser.go:247-267 and 277-297: the operand of ^ or _ *)
with parse_script (fuel : nat) (p : pst) {struct fuel} : res (node * pst) :=
  match fuel with
  | O => OutOfFuel
  | S n =>
    if p_peek p =? 123 then
      let! p1 := expect "{" p in
      let! (nodes, _, p2) := parse_loop n (StopKind KRbrace) p1 in
      Ok (NList nodes, p2)
    else
      let! (t, p1) := pnext p in
      parse_node n t p1
  end

(** macros.go:352-361 (the loop over the signature), parser.go:189-240 *)
with parse_args (fuel : nat) (sig : string) (p : pst) {struct fuel} : res (list node * pst) :=
  match fuel with
  | O => OutOfFuel
  | S n =>
    match sig with
    | EmptyString => Ok ([], p)
    | String c sig' =>
      match lower_ascii c with
      | "a"%char =>                               (* parser.go:189-209 *)
        let! p1 := expect "{" p in
        let lb := t_pos (p_tok p1) in
        let! (nodes, rb, p2) := parse_loop n (StopKind KRbrace) p1 in
        let! (args, p3) := parse_args n sig' p2 in
        Ok (NArg lb nodes rb :: args, p3)
      | "o"%char =>                               (* parser.go:211-237 *)
        if p_peek p =? 91 then
          let! p1 := expect "[" p in
          let lb := t_pos (p_tok p1) in
          let! (nodes, rb, p2) := parse_loop n (StopKind KRbrack) p1 in
          let! (args, p3) := parse_args n sig' p2 in
          Ok (NOptArg lb nodes rb :: args, p3)
        else parse_args n sig' p
      | _ => parse_args n sig' p                  (* parser.go:239-240, macros.go:353 *)
      end
    end
  end.

(** parser.go:35-42 newParser; p.s.tok is the zero Token. *)
Definition init_parser (x : string) : pst :=
  mk_ps (init_lex x) (mk_tok KInvalid 0 "") Normal.

(** Fuel that is always enough (Theorem [parse_total]). *)
Definition parse_fuel (x : string) : nat := (8 * String.length x + 8)%nat.

(** parser.go:16-19 ParseExpr and 44-56 parse: the nodes of the resulting
    ast.List.  The error result is always nil. *)
Definition parse_expr (x : string) : res (list node) :=
  let! (nodes, _, _) := parse_loop (parse_fuel x) StopNever (init_parser x) in
  Ok nodes.

End WithLetters.

(** Instance used for running examples: no letters beyond ASCII. *)
Definition ascii_only (r : Z) : bool := false.
