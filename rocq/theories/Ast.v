(** Model of ast/ast.go and ast/walk.go. *)
From Coq Require Import ZArith String List Bool.
From Verif Require Import Utf8 Token.
Import ListNotations.
Local Open Scope Z_scope.
Local Open Scope string_scope.

(** ast/ast.go:17-159: the node types.  [NNil] is the nil interface value.
    A macro's name is [None] for a nil *Ident. *)
Inductive node : Type :=
  | NNil
  | NList (l : list node)
  | NMacro (name : option (Z * string)) (args : list node)
  | NArg (lbrace : Z) (l : list node) (rbrace : Z)
  | NOptArg (lbrack : Z) (l : list node) (rbrack : Z)
  | NIdent (pos : Z) (name : string)
  | NMath (delim : string) (left : Z) (l : list node) (right : Z)
  | NWord (pos : Z) (text : string)
  | NLit (pos : Z) (text : string)
  | NSym (pos : Z) (text : string)
  | NSub (pos : Z) (n : node)
  | NSup (pos : Z) (n : node).

(** Induction principle with hypotheses for the lists of children. *)
Section NodeInd.
  Variable P : node -> Prop.
  Hypothesis Hnil : P NNil.
  Hypothesis Hlist : forall l, Forall P l -> P (NList l).
  Hypothesis Hmacro : forall nm l, Forall P l -> P (NMacro nm l).
  Hypothesis Harg : forall a l b, Forall P l -> P (NArg a l b).
  Hypothesis Hopt : forall a l b, Forall P l -> P (NOptArg a l b).
  Hypothesis Hident : forall p s, P (NIdent p s).
  Hypothesis Hmath : forall d a l b, Forall P l -> P (NMath d a l b).
  Hypothesis Hword : forall p s, P (NWord p s).
  Hypothesis Hlit : forall p s, P (NLit p s).
  Hypothesis Hsym : forall p s, P (NSym p s).
  Hypothesis Hsub : forall p n, P n -> P (NSub p n).
  Hypothesis Hsup : forall p n, P n -> P (NSup p n).

  Fixpoint node_ind' (n : node) : P n :=
    let fix go (l : list node) : Forall P l :=
      match l with
      | [] => Forall_nil P
      | x :: l' => Forall_cons x (node_ind' x) (go l')
      end in
    match n with
    | NNil => Hnil
    | NList l => Hlist l (go l)
    | NMacro nm l => Hmacro nm l (go l)
    | NArg a l b => Harg a l b (go l)
    | NOptArg a l b => Hopt a l b (go l)
    | NIdent p s => Hident p s
    | NMath d a l b => Hmath d a l b (go l)
    | NWord p s => Hword p s
    | NLit p s => Hlit p s
    | NSym p s => Hsym p s
    | NSub p n' => Hsub p n' (node_ind' n')
    | NSup p n' => Hsup p n' (node_ind' n')
    end.
End NodeInd.

(** Pos() and End(); None models the nil-dereference panic.
    ast/ast.go:28-40 (List), 52-58 (Macro), 69-70, 82-83, 91-92, 107-108,
    116-117, 125-126, 134-135, 146-147, 158-159. *)
Fixpoint node_pos (n : node) : option Z :=
  match n with
  | NNil => None
  | NList [] => Some (-1)
  | NList (x :: _) => node_pos x
  | NMacro (Some (p, _)) _ => Some p
  | NMacro None _ => None
  | NArg a _ _ => Some a
  | NOptArg a _ _ => Some a
  | NIdent p _ => Some p
  | NMath _ a _ _ => Some a
  | NWord p _ => Some p
  | NLit p _ => Some p
  | NSym p _ => Some p
  | NSub p _ => Some p
  | NSup p _ => Some p
  end.

Fixpoint node_end (n : node) : option Z :=
  let fix last_end (l : list node) : option Z :=
    match l with
    | [] => None
    | [x] => node_end x
    | _ :: l' => last_end l'
    end in
  match n with
  | NNil => None
  | NList [] => Some (-1)
  | NList l => last_end l
  | NMacro nm [] =>
    match nm with Some (p, s) => Some (p + zlen s) | None => None end
  | NMacro _ l => last_end l
  | NArg _ _ b => Some b
  | NOptArg _ _ b => Some b
  | NIdent p s => Some (p + zlen s)
  | NMath _ _ _ b => Some b
  | NWord p s => Some (p + zlen s)
  | NLit p s => Some (p + zlen s)
  | NSym p s => Some (p + zlen s)
  | NSub _ x => node_end x
  | NSup _ x => node_end x
  end.

(** ast/ast.go:162-252 Print: the text written.  [quote] is fmt's %q verb
    (standard library).  The nil dereference node.Name.Name of a macro with a
    nil name is None. *)
Section Print.
  Variable quote : string -> string.

  Definition obind {A B} (o : option A) (f : A -> option B) : option B :=
    match o with Some a => f a | None => None end.

  Fixpoint print (n : node) : option string :=
    let fix plist (first : bool) (l : list node) : option string :=
      match l with
      | [] => Some ""
      | x :: l' =>
        obind (print x) (fun a =>
        obind (plist false l') (fun b =>
        Some ((if first then "" else ", ") ++ a ++ b)))
      end in
    match n with
    | NArg _ l _ => obind (plist true l) (fun s => Some ("{" ++ s ++ "}"))
    | NIdent _ s => Some ("ast.Ident{" ++ quote s ++ "}")
    | NMacro None _ => None
    | NMacro (Some (_, s)) [] => Some ("ast.Macro{" ++ quote s ++ "}")
    | NMacro (Some (_, s)) l =>
      obind (plist true l) (fun t => Some ("ast.Macro{" ++ quote s ++ ", Args:" ++ t ++ "}"))
    | NMath _ _ [] _ => Some "ast.MathExpr{}"
    | NMath _ _ l _ =>
      obind (plist true l) (fun t => Some ("ast.MathExpr{List:" ++ t ++ "}"))
    | NOptArg _ l _ => obind (plist true l) (fun s => Some ("[" ++ s ++ "]"))
    | NWord _ s => Some ("ast.Word{" ++ quote s ++ "}")
    | NLit _ s => Some ("ast.Lit{" ++ quote s ++ "}")
    | NList l => obind (plist true l) (fun s => Some ("ast.List{" ++ s ++ "}"))
    | NSub _ x => obind (print x) (fun s => Some ("ast.Sub{" ++ s ++ "}"))
    | NSup _ x => obind (print x) (fun s => Some ("ast.Sup{" ++ s ++ "}"))
    | NSym _ s => Some ("ast.Symbol{" ++ quote s ++ "}")
    | NNil => Some "<nil>"
    end.
End Print.

(** ast/walk.go:20-70 Walk for an arbitrary visitor.  A visitor is a value [v]
    of some type [V]; its Visit method may act on a state [S] and may panic
    (None); it returns the visitor for the children or nil (inner None).
    The result None of [walk] models a panic. *)
Section Walk.
  Variables V S : Type.
  Variable visit : V -> node -> S -> option (option V * S).

  Fixpoint walk (v : V) (n : node) (s : S) : option S :=
    match visit v n s with
    | None => None
    | Some (None, s1) => Some s1                     (* walk.go:22 *)
    | Some (Some w, s1) =>
      let fix walk_list (l : list node) (s : S) : option S :=  (* walk.go:66-70 *)
        match l with
        | [] => Some s
        | x :: l' => obind (walk w x s) (walk_list l')
        end in
      obind
        (match n with
         | NList l => walk_list l s1
         | NMacro nm l =>
           match nm with
           | Some (p, t) =>
             (* Walk(v, n.Name): *Ident has no children *)
             obind (match visit w (NIdent p t) s1 with
                    | None => None
                    | Some (None, s2) => Some s2
                    | Some (Some w', s2) => obind (visit w' NNil s2) (fun r => Some (snd r))
                    end) (walk_list l)
           | None => walk_list l s1
           end
         | NArg _ l _ => walk_list l s1
         | NOptArg _ l _ => walk_list l s1
         | NIdent _ _ => Some s1
         | NMath _ _ l _ => walk_list l s1
         | NWord _ _ | NLit _ _ | NSym _ _ => Some s1
         | NSub _ x => walk w x s1
         | NSup _ x => walk w x s1
         | NNil => None                              (* walk.go:59 panic *)
         end)
        (fun s2 => obind (visit w NNil s2) (fun r => Some (snd r)))  (* walk.go:63 *)
    end.
End Walk.

(** ast/walk.go:72-88 Inspect: the visitor is a function returning whether to
    continue. *)
Definition inspect (S : Type) (f : node -> S -> option (bool * S)) (n : node) (s : S)
  : option S :=
  walk unit S
    (fun _ x st => match f x st with
                   | None => None
                   | Some (b, st') => Some (if b then Some tt else None, st')
                   end) tt n s.
