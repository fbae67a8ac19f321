(** C06: parsing inverts printing to LaTeX source. *)
From Coq Require Import ZArith String Ascii List Bool Lia.
From Verif Require Import Utf8 GoScanner Token Lexer Ast Parser Grammar Stream BoundarySpec Compose RoundSpec RoundFacts.
Import ListNotations.
Local Open Scope string_scope.
Local Open Scope list_scope.
Local Open Scope Z_scope.

Theorem C06_round_trip U l : WellFormed U l -> parse_expr U (source l) = Ok (place_seq false 0 l).
Proof. intros W. now apply complete_parse, well_formed_complete. Qed.

(** With text after it, the document is parsed the same and the rest shifted. *)
Theorem C06_round_trip_prefix U l b : WellFormed U l -> Cut U (source l) b ->
  parse_expr U (append (source l) b) =
  match parse_expr U b with
  | Ok ms => Ok (place_seq false 0 l ++ map (TreeSpec.shift (zlen (source l))) ms)
  | Panic q => Panic q
  | OutOfFuel => OutOfFuel
  end.
Proof. intros W C. apply parse_app; [now apply well_formed_complete|assumption]. Qed.

Definition ex_doc : list doc :=
  [DWord [104; 233]; DSpace;
   DMath [DMacro "\sqrt" [DOpt [DNum "3"; DSpace]; DReq [DWord [120]; DScript true (DNum "2"); DSym "+"; DGroup [DMath []]]];
          DScript false (DGroup [DWord [105]; DComment "c}"; DScript true (DMacro "\alpha" [])])];
   DSym "."; DMacro "\frac" [DReq []; DReq [DScript false (DGroup [])]]].
Example C06_ex_source :
  source ex_doc = String "h" (String "195" (String "169" (append " $\sqrt[3 ]{x^2+{$$}}_{i%c}" (String "010" "^\alpha}$.\frac{}{_{}}")))).
Proof. reflexivity. Qed.
Example C06_ex_wf : WellFormed (fun r => r =? 233) ex_doc.
Proof.
  split; [|vm_compute; reflexivity]. unfold ex_doc.
  Ltac wfs := repeat match goal with
    | |- wf_seq _ _ _ (_ :: _) => constructor
    | |- wf_seq _ _ _ [] => constructor
    | |- wf_args _ _ [] => constructor
    | |- wf_args _ _ (DReq _ :: _) => constructor
    | |- wf_args _ _ (DOpt _ :: _) => constructor
    | |- wf _ _ (DScript _ (DGroup _)) => apply wf_script_group
    | |- wf _ _ (DScript _ _) => apply wf_script; [discriminate|]
    | |- wf _ _ (DMacro _ _) => eapply wf_macro; [reflexivity|vm_compute; reflexivity|exact I|]
    | |- wf _ _ _ => constructor
    | |- not_closer _ _ => first [exact I | cbn; discriminate]
    | |- word_ok _ _ => split; [discriminate|]; cbn; intros ? ?; repeat (match goal with H : _ \/ _ |- _ => destruct H end); subst; try contradiction; vm_compute; repeat split; discriminate
    | |- num_ok _ => split; [discriminate|]; cbn; intros ? ?; intuition (subst; vm_compute; discriminate)
    | |- sym_ok _ => cbn; intuition
    | |- comment_ok _ => cbn; intros ? ?; intuition (subst; discriminate)
    end.
  wfs. intros a [<-|[<-|[]]]; split; vm_compute; discriminate.
Qed.
Example C06_ex_parse :
  parse_expr (fun r => r =? 233) (source ex_doc) = Ok
    [NWord 0 (String "h" (String "195" (String "169" ""))); NSym 3 " ";
     NMath "$" 4 [NMacro (Some (5, "\sqrt")) [NOptArg 10 [NLit 11 "3"] 13;
        NArg 14 [NWord 15 "x"; NSup 16 (NLit 17 "2"); NSym 18 "+"; NList [NMath "$" 20 [] 21]] 23];
        NSub 24 (NList [NWord 26 "i"; NSup 31 (NMacro (Some (32, "\alpha")) [])])] 39;
     NSym 40 "."; NMacro (Some (41, "\frac")) [NArg 46 [] 47; NArg 48 [NSub 49 (NList [])] 52]].
Proof. rewrite (C06_round_trip _ _ C06_ex_wf). vm_compute. reflexivity. Qed.

Print Assumptions C06_round_trip.
Print Assumptions C06_round_trip_prefix.
