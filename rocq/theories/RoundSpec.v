(** Specification of the round trip: documents as trees, their LaTeX source, and
    the syntax tree expected for each. *)
From Coq Require Import ZArith String Ascii List Bool.
From Verif Require Import Utf8 GoScanner Token Ast Grammar Stream Utf8Facts.
Import ListNotations.
Local Open Scope string_scope.
Local Open Scope list_scope.
Local Open Scope Z_scope.

Inductive doc : Type :=
| DWord (rs : list Z)               (* letters, as Unicode code points *)
| DNum (ds : string)                (* decimal digits *)
| DSym (c : ascii)                  (* one of = < > / * - + ! ? ' : , ; . ( ) [ ] *)
| DSpace
| DComment (c : string)             (* %c and a newline *)
| DMath (l : list doc)              (* $l$ *)
| DGroup (l : list doc)             (* {l} *)
| DScript (sup : bool) (d : doc)    (* ^d or _d *)
| DMacro (name : string) (args : list doc)
| DReq (l : list doc)               (* {l}, an argument of a macro *)
| DOpt (l : list doc).              (* [l], an argument of a macro *)

(** A piece of source: token kind, bytes, token text. *)
Definition piece : Type := (kind * string * string)%type.
Definition p_src (p : piece) : string := snd (fst p).
Definition same (k : kind) (t : string) : piece := (k, t, t).

Definition sym_kind (c : ascii) : kind :=
  match c with
  | "(" => KLparen | ")" => KRparen | "[" => KLbrack | "]" => KRbrack | _ => KSymbol
  end%char.

Definition newline : string := String "010" "".
Definition strip_cr (c : string) : string := raw_of (filter (fun x => negb (c_rune x =? 13)) (chars c)).

Fixpoint pieces (d : doc) : list piece :=
  match d with
  | DWord rs => [same KWord (encode_runes rs)]
  | DNum ds => [same KNumber ds]
  | DSym c => [same (sym_kind c) (String c "")]
  | DSpace => [same KSpace " "]
  | DComment c => [(KComment, append "%" (append c newline), append "%" (strip_cr c))]
  | DMath l => same KSymbol "$" :: flat_map pieces l ++ [same KSymbol "$"]
  | DGroup l | DReq l => same KLbrace "{" :: flat_map pieces l ++ [same KRbrace "}"]
  | DScript s d => same KSymbol (if s then "^" else "_") :: pieces d
  | DMacro nm args => same KMacro nm :: flat_map pieces args
  | DOpt l => same KLbrack "[" :: flat_map pieces l ++ [same KRbrack "]"]
  end.

Definition join (ps : list piece) : string := fold_right (fun p s => append (p_src p) s) "" ps.

(** The source text of a document. *)
Definition source (l : list doc) : string := join (flat_map pieces l).
Definition size (d : doc) : Z := zlen (join (pieces d)).

(** The syntax tree of a document that starts at byte [o]; [m]: in math mode. *)
Fixpoint place (m : bool) (o : Z) (d : doc) : node :=
  let fix seq (m : bool) (o : Z) (l : list doc) : list node :=
    match l with
    | [] => []
    | x :: l' => keep (place m o x) (seq m (o + size x) l')
    end in
  match d with
  | DWord rs => NWord o (encode_runes rs)
  | DNum ds => NLit o ds
  | DSym c => NSym o (String c "")
  | DSpace => if m then NNil else NSym o " "
  | DComment _ => NNil
  | DMath l => NMath "$" o (seq true (o + 1) l) (o + size d - 1)
  | DGroup l => NList (seq m (o + 1) l)
  | DScript s x => (if s then NSup else NSub) o (place m (o + 1) x)
  | DMacro nm args => NMacro (Some (o, nm)) (seq m (o + zlen nm) args)
  | DReq l => NArg o (seq m (o + 1) l) (o + size d - 1)
  | DOpt l => NOptArg o (seq m (o + 1) l) (o + size d - 1)
  end.

Fixpoint place_seq (m : bool) (o : Z) (l : list doc) : list node :=
  match l with
  | [] => []
  | x :: l' => keep (place m o x) (place_seq m (o + size x) l')
  end.

(** ** Well-formed documents *)
Section WithLetters.
Variable U : Z -> bool.

Definition word_ok (rs : list Z) : Prop :=
  rs <> [] /\ forall r, In r rs -> valid_rune r = true /\ is_letter U r = true /\ r <> 65279.

Definition num_ok (ds : string) : Prop :=
  ds <> "" /\ forall c, In c (list_ascii_of_string ds) -> 48 <= byte c <= 57.

Definition sym_ok (c : ascii) : Prop :=
  In c ["="; "<"; ">"; "/"; "*"; "-"; "+"; "!"; "?"; "'"; ":"; ","; ";"; "."; "("; ")"; "["; "]"]%char.

Definition comment_ok (c : string) : Prop :=
  forall a, In a (list_ascii_of_string c) -> byte a <> 10 /\ byte a <> 34.

(** A backslash and ASCII letters, or a backslash and one other printable
    character that is not a digit or a double quote. *)
Definition macro_name_ok (nm : string) : bool :=
  match nm with
  | String b (String c nm') =>
    (byte b =? 92) &&
    (if is_ascii_letter (byte c)
     then forallb (fun x => is_ascii_letter (byte x)) (list_ascii_of_string nm')
     else String.eqb nm' "" && (32 <? byte c) && (byte c <? 127)
          && negb (is_decimal (byte c)) && negb (byte c =? 34))
  | _ => false
  end.

(** Where a list of documents stands: the delimiter that ends it must not occur
    directly in it. *)
Definition not_closer (cl : closer) (d : doc) : Prop :=
  match cl, d with
  | CDollar, DMath _ => False
  | CBrack, DSym c => c <> "]"%char
  | _, _ => True
  end.

Definition args_fit (sg : list slot) (args : list doc) : Prop :=
  (fix fit (sg : list slot) (args : list doc) : Prop :=
    match sg, args with
    | [], [] => True
    | Req :: sg', DReq _ :: args' => fit sg' args'
    | Opt :: sg', DOpt _ :: args' => fit sg' args'
    | Opt :: Req :: sg', DReq _ :: args' => fit sg' args'
    | _, _ => False
    end) sg args.

(** [m]: in math mode. *)
Inductive wf : bool -> doc -> Prop :=
| wf_word m rs : word_ok rs -> wf m (DWord rs)
| wf_num m ds : num_ok ds -> wf m (DNum ds)
| wf_sym m c : sym_ok c -> wf m (DSym c)
| wf_space m : wf m DSpace
| wf_comment m c : comment_ok c -> wf m (DComment c)
| wf_math m l : wf_seq true CDollar l -> wf m (DMath l)
| wf_group l : wf_seq true CBrace l -> wf true (DGroup l)
| wf_script_group m s l : wf_seq m CBrace l -> wf m (DScript s (DGroup l))
| wf_script m s d : (forall l, d <> DGroup l) -> wf m d -> wf m (DScript s d)
| wf_macro m nm sg args :
    macro_name_ok nm = true -> known_macro nm = Some sg -> args_fit sg args ->
    wf_args m args -> wf m (DMacro nm args)
with wf_seq : bool -> closer -> list doc -> Prop :=
| wfs_nil m cl : wf_seq m cl []
| wfs_cons m cl d l : wf m d -> not_closer cl d -> wf_seq m cl l -> wf_seq m cl (d :: l)
with wf_args : bool -> list doc -> Prop :=
| wfa_nil m : wf_args m []
| wfa_req m l args : wf_seq m CBrace l -> wf_args m args -> wf_args m (DReq l :: args)
| wfa_opt m l args : wf_seq m CBrack l -> wf_args m args -> wf_args m (DOpt l :: args).

(** The character [c] directly after a token does not continue it. *)
Definition stops_at (k : kind) (t : string) (c : Z) : bool :=
  match k with
  | KWord => negb (is_letter U c)
  | KNumber => negb (is_ascii_letter c) && negb (is_decimal c) && negb (c =? 95) && negb (c =? 46)
  | KSymbol => negb (String.eqb t "." && is_decimal c)
  | KMacro =>
    if String.eqb t "\." then negb (is_decimal c)
    else match t with
         | String _ (String x _) => negb (is_ascii_letter (byte x) && is_letter U c)
         | _ => true
         end
  | _ => true
  end.

(** No two neighbouring tokens run together. *)
Fixpoint apart (ps : list piece) : bool :=
  match ps with
  | (k, _, t) :: (((_, src, _) :: _) as ps') => stops_at k t (fst (decode_rune src)) && apart ps'
  | _ => true
  end.

Definition WellFormed (l : list doc) : Prop :=
  wf_seq false CNone l /\ apart (flat_map pieces l) = true.

End WithLetters.
