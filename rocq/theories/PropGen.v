(** C85: the program that generates the symbol tables (GenSyms.v). *)
From Coq Require Import ZArith NArith String Ascii List Bool Lia Permutation Sorted.
From Verif Require Import Utf8 Utf8Facts Ast AstSpec Quote GenSyms SetTable.
Import ListNotations.
Local Open Scope string_scope.
Local Open Scope list_scope.
Local Open Scope Z_scope.

(** ** Specification: reading the generated file *)
Definition newline : ascii := ascii_of_nat 10.
Definition tabulator : string := String (ascii_of_nat 9) "".
(** The lines of a text (the last one is what follows the last newline). *)
Fixpoint lines (s : string) : list string :=
  match s with
  | "" => [""]
  | String c s' => if Ascii.eqb c newline then "" :: lines s' else match lines s' with [] => [] | l :: ls => String c l :: ls end
  end.
Fixpoint strip_prefix (p s : string) : option string :=
  match p, s with
  | "", _ => Some s
  | String a p', String b s' => if Ascii.eqb a b then strip_prefix p' s' else None
  | _, _ => None
  end.
Fixpoint strip_suffix (p s : string) : option string :=
  if String.eqb s p then Some "" else match s with "" => None | String c s' => option_map (String c) (strip_suffix p s') end.
(** The meaning of the inside of a Go string literal. *)
Definition hex (a : ascii) : Z := if in_range 48 57 (byte a) then byte a - 48 else byte a - 87.
Definition escaped (a : ascii) : ascii :=
  zascii (if Ascii.eqb a "a" then 7 else if Ascii.eqb a "b" then 8 else if Ascii.eqb a "f" then 12 else if Ascii.eqb a "n" then 10
    else if Ascii.eqb a "r" then 13 else if Ascii.eqb a "t" then 9 else if Ascii.eqb a "v" then 11 else byte a).
Fixpoint unescape (s : string) : string :=
  match s with
  | String "\" (String "x" (String h (String l s'))) => String (zascii (hex h * 16 + hex l)) (unescape s')
  | String "\" (String c s') => String (escaped c) (unescape s')
  | String c s' => String c (unescape s')
  | "" => ""
  end.
(** A line with an element of a set, and one that opens a set. *)
Definition element (l : string) : option string :=
  match strip_prefix (append tabulator (append tabulator """")) l with
  | Some r => option_map unescape (strip_suffix """," r)
  | None => None
  end.
Definition opening (l : string) : option string :=
  match strip_prefix tabulator l with Some r => strip_suffix " = NewSet(" r | None => None end.
(** The sets declared in a file, with their elements, in order. *)
Fixpoint read (ls : list string) : list (string * list string) * list string :=
  match ls with
  | [] => ([], [])
  | l :: ls' =>
    let '(sets, pending) := read ls' in
    match element l, opening l with
    | Some x, _ => (sets, x :: pending)
    | None, Some k => ((k, pending) :: sets, [])
    | None, None => (sets, pending)
    end
  end.
Definition declared (text : string) : list (string * list string) := fst (read (lines text)).
(** Go identifiers (ASCII). *)
Definition ident_char (a : ascii) : bool := in_range 65 90 (byte a) || in_range 97 122 (byte a) || in_range 48 57 (byte a) || (byte a =? 95).
Fixpoint all_chars (p : ascii -> bool) (s : string) : bool := match s with "" => true | String a s' => p a && all_chars p s' end.
Definition identifier (s : string) : Prop := s <> "" /\ all_chars ident_char s = true.
(** The iteration order of maps is some order of the keys. *)
Definition some_order (range : list (string * list string) -> list string) : Prop := forall m, Permutation (range m) (map fst m).
Definition before (a b : string * list string) : Prop := String.ltb (fst a) (fst b) = true.

(** ** Sorting *)
Lemma scompare_refl s : String.compare s s = Eq.
Proof. induction s as [|a s IH]; [reflexivity|]. cbn [String.compare]. unfold Ascii.compare. rewrite N.compare_refl. exact IH. Qed.
Lemma acompare a b : Ascii.compare a b = N.compare (N_of_ascii a) (N_of_ascii b). Proof. reflexivity. Qed.
Lemma scompare_lt_trans a : forall b c, String.compare a b = Lt -> String.compare b c = Lt -> String.compare a c = Lt.
Proof.
  induction a as [|x a IH]; intros [|y b] [|z c]; cbn [String.compare]; try discriminate; auto.
  rewrite !acompare. destruct (N.compare_spec (N_of_ascii x) (N_of_ascii y)) as [E|E|E]; try discriminate.
  - rewrite E. destruct (N.compare _ _) eqn:C; try discriminate; auto. intros A B. now apply IH with b.
  - intros _. destruct (N.compare_spec (N_of_ascii y) (N_of_ascii z)) as [E'|E'|E']; try discriminate.
    + intros _. rewrite <- E'. apply N.compare_lt_iff in E. now rewrite E.
    + intros _. assert (C : (N_of_ascii x < N_of_ascii z)%N) by lia. apply N.compare_lt_iff in C. now rewrite C.
Qed.
Lemma leb_lt k x : String.leb k x = false -> String.ltb x k = true.
Proof.
  unfold String.leb, String.ltb. rewrite (String.compare_antisym k x). destruct (String.compare x k); cbn [CompOpp]; intros H; congruence || reflexivity.
Qed.
Lemma leb_ne k x : String.leb k x = true -> k <> x -> String.ltb k x = true.
Proof.
  unfold String.leb, String.ltb. destruct (String.compare k x) eqn:C; try discriminate; auto. intros _ N. apply String.compare_eq_iff in C. contradiction.
Qed.
Definition slt (a b : string) : Prop := String.ltb a b = true.
Lemma slt_trans a b c : slt a b -> slt b c -> slt a c.
Proof.
  unfold slt, String.ltb. destruct (String.compare a b) eqn:E1; try discriminate. destruct (String.compare b c) eqn:E2; try discriminate.
  intros _ _. now rewrite (scompare_lt_trans a b c E1 E2).
Qed.
Lemma slt_irrefl a : ~ slt a a. Proof. unfold slt, String.ltb. rewrite scompare_refl. discriminate. Qed.
Lemma insert_perm k l : Permutation (insert k l) (k :: l).
Proof.
  induction l as [|x l IH]; [reflexivity|]. cbn [insert]. destruct (String.leb k x); [reflexivity|].
  rewrite IH. apply perm_swap.
Qed.
Lemma sort_perm l : Permutation (sort_strings l) l.
Proof. induction l as [|k l IH]; [reflexivity|]. cbn. rewrite insert_perm. now constructor. Qed.
Lemma insert_sorted k l : StronglySorted slt l -> ~ In k l -> StronglySorted slt (insert k l).
Proof.
  induction 1 as [|x l S IH F]; intros N; [repeat constructor|]. cbn [insert]. destruct (String.leb k x) eqn:E.
  - assert (K : slt k x) by (apply leb_ne; [exact E|intros ->; apply N; now left]).
    constructor; [now constructor|]. constructor; [exact K|]. eapply Forall_impl; [|exact F]. intros a. now apply slt_trans.
  - constructor; [apply IH; intros I; apply N; now right|].
    eapply Permutation_Forall; [symmetry; apply insert_perm|]. constructor; [now apply leb_lt|exact F].
Qed.
Lemma sort_sorted l : NoDup l -> StronglySorted slt (sort_strings l).
Proof.
  induction 1 as [|k l N _ IH]; [constructor|]. cbn. apply insert_sorted; [exact IH|]. intros I. apply N.
  exact (Permutation_in _ (sort_perm l) I).
Qed.
Lemma sorted_unique l1 : forall l2, StronglySorted slt l1 -> StronglySorted slt l2 -> Permutation l1 l2 -> l1 = l2.
Proof.
  induction l1 as [|a l1 IH]; intros l2 S1 S2 P; [now apply Permutation_nil in P|].
  destruct l2 as [|b l2]; [symmetry in P; now apply Permutation_nil in P|].
  inversion S1 as [|? ? S1' F1]; subst. inversion S2 as [|? ? S2' F2]; subst. rewrite Forall_forall in F1, F2.
  assert (E : a = b).
  { destruct (String.string_dec a b) as [|N]; [assumption|exfalso].
    assert (I1 : In a (b :: l2)) by (apply (Permutation_in _ P); now left). destruct I1 as [|I1]; [symmetry in H; contradiction|].
    assert (I2 : In b (a :: l1)) by (apply (Permutation_in _ (Permutation_sym P)); now left). destruct I2 as [|I2]; [contradiction|].
    apply (slt_irrefl a). apply slt_trans with b; [exact (F1 b I2)|exact (F2 a I1)]. }
  subst b. f_equal. apply IH; [assumption|assumption|]. now apply Permutation_cons_inv in P.
Qed.

(** ** Lines *)
Definition line_char (a : ascii) : bool := negb (Ascii.eqb a newline).
Lemma lines_app a b : all_chars line_char a = true -> lines (append a (append nl b)) = a :: lines b.
Proof.
  induction a as [|c a IH]; intros H; [reflexivity|]. cbn [all_chars] in H. apply andb_true_iff in H as [H1 H2]. cbn [append lines].
  unfold line_char in H1. apply negb_true_iff in H1. rewrite H1. rewrite IH by exact H2. reflexivity.
Qed.
Lemma all_chars_app p a b : all_chars p (append a b) = all_chars p a && all_chars p b.
Proof. induction a as [|c a IH]; [reflexivity|]. cbn [append all_chars]. rewrite IH. apply andb_assoc. Qed.
Lemma all_chars_impl p q s : (forall a, p a = true -> q a = true) -> all_chars p s = true -> all_chars q s = true.
Proof. intros H. induction s as [|c s IH]; [auto|]. cbn. rewrite !andb_true_iff. intros [A B]. auto. Qed.
Lemma strip_prefix_app p s : strip_prefix p (append p s) = Some s.
Proof. induction p as [|a p IH]; [reflexivity|]. cbn. now rewrite Ascii.eqb_refl. Qed.
Lemma slength_app a b : String.length (append a b) = (String.length a + String.length b)%nat.
Proof. induction a; cbn; auto. Qed.
Lemma strip_suffix_app p x : strip_suffix p (append x p) = Some x.
Proof.
  induction x as [|c x IH]; cbn [append].
  - destruct p; cbn [strip_suffix]; rewrite String.eqb_refl; reflexivity.
  - cbn [strip_suffix]. destruct (String.eqb_spec (String c (append x p)) p) as [E|_]; [|now rewrite IH].
    exfalso. apply (f_equal String.length) in E. cbn [String.length] in E. rewrite slength_app in E. lia.
Qed.
Lemma unescape_byte a r : unescape (append (quote_byte a) r) = String a (unescape r).
Proof. destruct a as [[] [] [] [] [] [] [] []]; reflexivity. Qed.
Lemma unescape_quote s : unescape (quote_bytes s) = s.
Proof. induction s as [|a s IH]; [reflexivity|]. cbn [quote_bytes]. now rewrite unescape_byte, IH. Qed.
Lemma quote_line s : all_chars line_char (quote_bytes s) = true.
Proof.
  induction s as [|a s IH]; [reflexivity|]. cbn [quote_bytes]. rewrite all_chars_app, IH, andb_true_r.
  destruct a as [[] [] [] [] [] [] [] []]; reflexivity.
Qed.
Lemma ident_line s : all_chars ident_char s = true -> all_chars line_char s = true.
Proof. apply all_chars_impl. intros a. destruct a as [[] [] [] [] [] [] [] []]; vm_compute; auto. Qed.

Definition item_line (s : string) : string := scat [tab; tab; go_quote s; ","].
Definition open_line (k : string) : string := scat [tab; k; " = NewSet("].
Lemma item_read s : element (item_line s) = Some s.
Proof.
  unfold element, item_line, scat. cbn [fold_right]. unfold go_quote.
  replace (append tab (append tab (append (append """" (append (quote_bytes s) """")) (append "," ""))))
    with (append (append tab (append tab """")) (append (quote_bytes s) """,")) by (cbn [append tab]; now rewrite sapp_assoc).
  rewrite strip_prefix_app, strip_suffix_app. cbn [option_map]. now rewrite unescape_quote.
Qed.
Lemma open_read k : identifier k -> element (open_line k) = None /\ opening (open_line k) = Some k.
Proof.
  intros [N I]. split.
  - unfold element, open_line, scat. cbn [fold_right]. destruct k as [|a k]; [contradiction|]. cbn [tabulator tab append strip_prefix].
    rewrite Ascii.eqb_refl. cbn [all_chars] in I. apply andb_true_iff in I as [I _].
    destruct (Ascii.eqb_spec (ascii_of_nat 9) a) as [<-|_]; [discriminate I|reflexivity].
  - unfold opening, open_line, scat. cbn [fold_right]. rewrite strip_prefix_app.
    replace (append k (append " = NewSet(" "")) with (append k " = NewSet(") by reflexivity. apply strip_suffix_app.
Qed.
Lemma item_line_ok s : all_chars line_char (item_line s) = true.
Proof. unfold item_line, scat, go_quote. cbn [fold_right]. rewrite !all_chars_app, quote_line. reflexivity. Qed.
Lemma open_line_ok k : identifier k -> all_chars line_char (open_line k) = true.
Proof. intros [_ I]. unfold open_line, scat. cbn [fold_right]. rewrite !all_chars_app, (ident_line k I). reflexivity. Qed.

Lemma read_items v rest : forall ls, lines (append (scat (map (fun s => scat [tab; tab; go_quote s; ","; nl]) v)) rest) = ls ->
  read ls = (fst (read (lines rest)), v ++ snd (read (lines rest))).
Proof.
  induction v as [|s v IH]; intros ls <-.
  - cbn [map scat fold_right append app]. destruct (read (lines rest)); reflexivity.
  - cbn [map]. set (more := scat (map _ v)) in *.
    change (scat (scat [tab; tab; go_quote s; ","; nl] :: map (fun s => scat [tab; tab; go_quote s; ","; nl]) v)) with (append (scat [tab; tab; go_quote s; ","; nl]) more).
    replace (append (append (scat [tab; tab; go_quote s; ","; nl]) more) rest) with (append (item_line s) (append nl (append more rest))).
    2:{ unfold item_line, scat. cbn [fold_right]. rewrite !sapp_assoc. reflexivity. }
    rewrite lines_app by apply item_line_ok. cbn [read]. rewrite (IH _ eq_refl), item_read. reflexivity.
Qed.
Lemma read_set first k v rest : identifier k ->
  read (lines (append (set_text first k v) rest)) = ((k, v) :: fst (read (lines rest)), []) \/ snd (read (lines rest)) <> [].
Proof.
  intros I. destruct (snd (read (lines rest))) eqn:E; [left|right; discriminate].
  set (items := scat (map (fun s => scat [tab; tab; go_quote s; ","; nl]) v)).
  assert (T : append (set_text first k v) rest =
    append (if first then "" else nl) (append (open_line k) (append nl (append items (append (append tab ")") (append nl rest)))))).
  { unfold set_text, open_line, scat. cbn [fold_right]. fold items. unfold items, scat. rewrite !sapp_assoc. reflexivity. }
  assert (R : read (lines (append (open_line k) (append nl (append items (append (append tab ")") (append nl rest)))))) = ((k, v) :: fst (read (lines rest)), [])).
  { rewrite lines_app by (now apply open_line_ok). cbn [read]. unfold items. rewrite (read_items _ _ _ eq_refl). rewrite lines_app by reflexivity.
    cbn [read]. destruct (read (lines rest)) as [st pd]. cbn [snd] in E. subst pd. destruct (open_read k I) as [-> ->].
    change (element (append tab ")")) with (@None string). change (opening (append tab ")")) with (@None string). cbn [fst snd]. now rewrite app_nil_r. }
  rewrite T. destruct first; [exact R|]. set (X := append (open_line k) _) in *.
  change (append nl X) with (append "" (append nl X)). rewrite lines_app by reflexivity. cbn [read]. rewrite R. reflexivity.
Qed.
Lemma read_sets m rest : snd (read (lines rest)) = [] -> forall ks first, Forall identifier ks ->
  read (lines (append (sets_text first ks m) rest)) = (map (fun k => (k, lookup k m)) ks ++ fst (read (lines rest)), []).
Proof.
  intros E. induction ks as [|k ks IH]; intros first F.
  - cbn [sets_text append map app]. destruct (read (lines rest)). cbn [snd fst] in *. now subst.
  - inversion F as [|? ? F1 F2]; subst. cbn [sets_text]. rewrite sapp_assoc.
    destruct (read_set first k (lookup k m) (append (sets_text false ks m) rest) F1) as [->|N].
    + rewrite (IH false F2). reflexivity.
    + exfalso. apply N. rewrite (IH false F2). reflexivity.
Qed.
Lemma lookup_map m : NoDup (map fst m) -> map (fun k => (k, lookup k m)) (map fst m) = m.
Proof.
  induction m as [|[k v] m IH]; intros H; [reflexivity|]. cbn [map fst] in *. inversion H as [|? ? N H']; subst.
  cbn [lookup]. rewrite String.eqb_refl. f_equal. rewrite <- IH at 2 by exact H'. apply map_ext_in. intros x I. cbn [lookup].
  destruct (String.eqb_spec x k) as [->|_]; [contradiction|reflexivity].
Qed.
Lemma declared_text keys m : NoDup (map fst m) -> Permutation keys (map fst m) -> Forall identifier (map fst m) ->
  declared (file_text keys m) = map (fun k => (k, lookup k m)) (sort_strings keys).
Proof.
  intros ND P F. unfold declared.
  assert (T : file_text keys m = append "// Autogenerated. DO NOT EDIT." (append nl (append "" (append nl (append "package symbols" (append nl (append "" (append nl (append "var (" (append nl
    (append (sets_text true (sort_strings keys) m) (append ")" (append nl ""))))))))))))).
  { reflexivity. }
  rewrite T. rewrite !lines_app by reflexivity. cbn [read].
  rewrite read_sets.
  - cbn. now rewrite app_nil_r.
  - reflexivity.
  - eapply Permutation_Forall; [|exact F]. symmetry. rewrite sort_perm. exact P.
Qed.

(** ** C85 *)
(** If the Python process reports the sets [m], the program exits with status 0 and
    the file declares exactly these sets, with their elements in the reported order,
    the sets sorted by name. *)
Theorem C85_declares : forall range python old m, some_order range -> NoDup (map fst m) -> Forall identifier (map fst m) ->
  python (json_syms wanted) = Reports m ->
  exists text, main range python true true old = (0, Some text) /\
    Permutation (declared text) m /\ StronglySorted before (declared text).
Proof.
  intros * SO ND F P. unfold main, gen. rewrite P. eexists. split; [reflexivity|].
  rewrite (declared_text _ _ ND (SO m) F). pose proof (SO m) as PM. split.
  - rewrite <- (lookup_map m ND) at 2. apply Permutation_map. rewrite sort_perm. exact PM.
  - assert (S : StronglySorted slt (sort_strings (range m))).
    { apply sort_sorted. eapply Permutation_NoDup; [symmetry; exact PM|exact ND]. }
    induction S as [|k ks S IH FA]; [constructor|]. cbn [map]. constructor; [exact IH|].
    apply Forall_map. exact FA.
Qed.
(** The file does not depend on the iteration order of maps. *)
Theorem C85_reproducible : forall range range' python c1 c2 old, some_order range -> some_order range' ->
  (forall m, python (json_syms wanted) = Reports m -> NoDup (map fst m)) ->
  main range python c1 c2 old = main range' python c1 c2 old.
Proof.
  intros * S1 S2 ND. unfold main, gen. destruct c1; [|reflexivity]. destruct (python (json_syms wanted)) as [| |m]; [reflexivity|reflexivity|].
  specialize (ND m eq_refl). unfold file_text. replace (sort_strings (range' m)) with (sort_strings (range m)); [reflexivity|].
  apply sorted_unique.
  - apply sort_sorted. eapply Permutation_NoDup; [symmetry; apply S1|exact ND].
  - apply sort_sorted. eapply Permutation_NoDup; [symmetry; apply S2|exact ND].
  - rewrite !sort_perm. transitivity (map fst m); [apply S1|symmetry; apply S2].
Qed.
(** When Python fails or its output cannot be read, the tables are lost: the file is
    left empty, and the program exits with status 0 all the same.  Only if the file
    cannot be created is it left as it was. *)
Theorem C85_failure : forall range python c1 c2 old, (forall m, python (json_syms wanted) <> Reports m) ->
  main range python c1 c2 old = (if c1 && c2 then 0 else 1, if c1 then Some "" else old) .
Proof.
  intros * N. unfold main, gen. destruct c1, c2; destruct (python (json_syms wanted)) as [| |m]; try reflexivity; now destruct (N m).
Qed.
(** Exit statuses. *)
Theorem C85_status : forall range python c1 c2 old, fst (main range python c1 c2 old) = 0 <-> c1 = true /\ c2 = true.
Proof. intros. unfold main. destruct c1; [destruct (gen _ _ _)|]; destruct c2; cbn; intuition discriminate. Qed.

(** ** The tables of the package are what the program writes for the sets they
    declare: see ConformGen.v for the text of symbols_gen.go. *)
Definition tables : list (string * list string) := [
  ("BinaryOperators", BinaryOperators_list); ("RelationSymbols", RelationSymbols_list); ("ArrowSymbols", ArrowSymbols_list);
  ("PunctuationSymbols", PunctuationSymbols_list); ("OverUnderSymbols", OverUnderSymbols_list); ("OverUnderFunctions", OverUnderFunctions_list);
  ("DropSubSymbols", DropSubSymbols_list); ("FontNames", FontNames_list); ("FunctionNames", FunctionNames_list);
  ("AmbiDelim", AmbiDelim_list); ("LeftDelim", LeftDelim_list); ("RightDelim", RightDelim_list)].
Fixpoint distinct (l : list string) : bool := match l with [] => true | x :: l' => negb (existsb (String.eqb x) l') && distinct l' end.
Lemma distinct_nodup l : distinct l = true -> NoDup l.
Proof.
  induction l as [|x l IH]; intros H; constructor; cbn [distinct] in H; apply andb_true_iff in H as [H1 H2]; [|auto].
  intros I. apply negb_true_iff in H1. assert (X : existsb (String.eqb x) l = true) by (apply existsb_exists; exists x; split; [exact I|apply String.eqb_refl]).
  rewrite X in H1. discriminate H1.
Qed.
(** The request sent to Python, on one line: matplotlib's name and the package's name
    of each set. *)
Definition request_line : string :=
  "[{""py"":""_binary_operators"",""go"":""BinaryOperators""},{""py"":""_relation_symbols"",""go"":""RelationSymbols""},{""py"":""_arrow_symbols"",""go"":""ArrowSymbols""},{""py"":""_punctuation_symbols"",""go"":""PunctuationSymbols""},{""py"":""_overunder_symbols"",""go"":""OverUnderSymbols""},{""py"":""_overunder_functions"",""go"":""OverUnderFunctions""},{""py"":""_dropsub_symbols"",""go"":""DropSubSymbols""},{""py"":""_fontnames"",""go"":""FontNames""},{""py"":""_function_names"",""go"":""FunctionNames""},{""py"":""_ambi_delim"",""go"":""AmbiDelim""},{""py"":""_left_delim"",""go"":""LeftDelim""},{""py"":""_right_delim"",""go"":""RightDelim""}]".
(** The parts of a text between double quotes, and the names after "go". *)
Fixpoint parts (s : string) : list string :=
  match s with
  | "" => [""]
  | String c s' => if Ascii.eqb c """" then "" :: parts s' else match parts s' with [] => [] | l :: ls => String c l :: ls end
  end.
Fixpoint named (l : list string) : list string :=
  match l with
  | "go" :: ((":" :: k :: l') as l1) => k :: named l'
  | _ :: l' => named l'
  | [] => []
  end.
(** Python is asked for the package's sets, each once, and nothing but its answer to
    that request matters. *)
Theorem C85_asked :
  (forall range python python' c1 c2 old, python (append request_line (String newline "")) = python' (append request_line (String newline "")) ->
     main range python c1 c2 old = main range python' c1 c2 old) /\
  named (parts request_line) = map fst tables /\ NoDup (map fst tables).
Proof.
  split; [|split].
  - intros * H. assert (E : json_syms wanted = append request_line (String newline "")) by (vm_compute; reflexivity).
    unfold main, gen. rewrite E, H. reflexivity.
  - vm_compute. reflexivity.
  - apply distinct_nodup. vm_compute. reflexivity.
Qed.
Example C85_case : map snd wanted = map fst tables /\ NoDup (map fst tables) /\ Forall identifier (map fst tables) /\
  some_order (map fst) /\ (forall m, Permutation (rev (map fst m)) (map (@fst string (list string)) m)) /\
  declared (file_text (map fst tables) tables) = map (fun k => (k, lookup k tables)) (sort_strings (map fst tables)) /\
  map fst (declared (file_text (map fst tables) tables)) =
    ["AmbiDelim"; "ArrowSymbols"; "BinaryOperators"; "DropSubSymbols"; "FontNames"; "FunctionNames"; "LeftDelim"; "OverUnderFunctions";
     "OverUnderSymbols"; "PunctuationSymbols"; "RelationSymbols"; "RightDelim"].
Proof.
  split; [reflexivity|]. split; [apply distinct_nodup; vm_compute; reflexivity|].
  split; [repeat constructor; discriminate|]. split; [intros m; reflexivity|]. split; [intros m; symmetry; apply Permutation_rev|].
  split; vm_compute; reflexivity.
Qed.
Print Assumptions C85_declares. Print Assumptions C85_reproducible. Print Assumptions C85_failure. Print Assumptions C85_status. Print Assumptions C85_asked.
