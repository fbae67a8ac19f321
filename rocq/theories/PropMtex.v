(** C39-C46, C52: typesetting a parsed expression (mtex.Parse). *)
From Coq Require Import ZArith String Ascii List Bool Lia QArith Qcanon Lqa Floats.
From Verif Require Import Utf8 Utf8Facts Token Ast MacroTable SymTable SetTable MtexTable Parser Grammar Stream Symbols
  PropSymbols TreeSpec PropParse Arith Exact Box Ship ShipSpec ShipFacts ShipFacts2 PackSpec ExactFacts PropPack PropShip
  Mtex MtexSpec FracSpec MtexFacts MtexFacts2 MtexFacts3 MtexFacts4 MtexFacts5.
Import ListNotations.
Local Open Scope string_scope.
Local Open Scope list_scope.
Local Open Scope Z_scope.

(** ** C39: outcome *)
Theorem C39_outcome : forall (A : arith) (S : Type) U range (be : @backend A S) parse_float x size dpi s,
  (exists t s' b gs l, mtex_parse U range be parse_float x size dpi s = Some (LOk ((t, None), s')) /\
                       t = TL KHList b f0 gs l) \/
  (exists e, mtex_parse U range be parse_float x size dpi s = Some (LPanic e)).
Proof.
  intros. unfold mtex_parse. destruct (C01_terminates U x) as [(l & E)|(q & E)]; rewrite E; [|right; eauto].
  unfold typeset, mbind, mret.
  destruct (go range be parse_float x true (NList l) (mk_visitor [] (mk_state (mk_font "default" "rm" size) dpi) false) s) as [[v s1]|e];
    [|right; eauto].
  destruct (hlist_of be (v_nodes v) true s1) as [[t s2]|e] eqn:H; [|right; eauto].
  left. pose proof H as H'. apply hlist_of_shape in H as (b & gs & l' & ->).
  do 5 eexists. split; reflexivity.
Qed.

(** With a backend that does not panic, exactly the expressions are typeset that
    parse and in which the visitor comes to no refused construct. *)
Theorem C39_accepts : forall (A : arith) (S : Type) U range (be : @backend A S) parse_float x size dpi s,
  fair range -> total_backend be ->
  ((exists t s', mtex_parse U range be parse_float x size dpi s = Some (LOk ((t, None), s'))) <->
   exists l, parse_expr U x = Ok l /\
     forall m y, reach true false (NList l) m y -> ~ refused (fun v => parse_float v <> None) m y).
Proof.
  intros * FR T. unfold mtex_parse. destruct (C01_terminates U x) as [(l & E)|(q & E)]; rewrite E.
  2:{ split; [intros (t & s' & H); discriminate H|intros (l & H & _); discriminate H]. }
  split.
  - intros (t & s' & H). exists l. split; [reflexivity|]. intros m y R RF.
    injection H as H. apply bind_ok in H as (t1 & s1 & H & _). unfold typeset in H.
    apply bind_ok in H as (v & s2 & H & _).
    pose proof (reach_panics range FR be parse_float x _ _ _ _ _ R RF [] (mk_state (mk_font "default" "rm" size) dpi) s) as (e & P).
    rewrite P in H. discriminate H.
  - intros (l' & E' & NR). injection E' as <-.
    assert (TG : total (go range be parse_float x true (NList l) (mk_visitor [] (mk_state (mk_font "default" "rm" size) dpi) false))).
    { apply (t_go range FR be parse_float x T). intros m y R.
      apply (parsed_fine U parse_float x l m y E R). now apply NR. }
    destruct (TG s) as (v & s1 & E1). destruct (t_hlist_of be T (v_nodes v) true s1) as (t & s2 & E2).
    exists t, s2. unfold typeset, mbind, mret. now rewrite E1, E2.
Qed.

(** Model fidelity: Visit and Walk are one recursion in the model; it is Walk of
    the visitor. *)
Theorem C39_walk : forall (A : arith) (S : Type) range (be : @backend A S) parse_float expr n v s,
  walk unit (visitor * S) (visit range be parse_float expr) tt n (v, s) =
  match go range be parse_float expr true n v s with LOk vs => Some vs | LPanic _ => None end.
Proof. intros. apply walk_is_go. Qed.

Definition one_float : string -> option float := fun _ => Some 1%float.
Lemma c27_total : total_backend c27_be.
Proof. constructor; intros; intros st0; do 2 eexists; reflexivity. Qed.

Definition width_of (r : option (lres ((@Box.tnode float64 * option string) * unit))) : option float :=
  match r with Some (LOk ((t, None), _)) => Some (t_width t) | _ => None end.
Example C39_case :
  width_of (mtex_parse ascii_only id_range c27_be one_float "ab $x+\frac{1}{2}$" 10%float 72%float tt) = Some 38.599999999999994%float /\
  width_of (mtex_parse ascii_only id_range c27_be one_float "$x^2$" 10%float 72%float tt) = None /\
  width_of (mtex_parse ascii_only id_range c27_be one_float "$a,b$" 10%float 72%float tt) = None /\
  total_backend c27_be /\ fair id_range.
Proof. split; [vm_compute; reflexivity|]. split; [vm_compute; reflexivity|]. split; [vm_compute; reflexivity|].
  split; [exact c27_total|exact id_fair]. Qed.

(** ** C40: scripts *)
Theorem C40_scripts_panic : forall (A : arith) (S : Type) U range (be : @backend A S) parse_float x size dpi s l m p n,
  fair range -> parse_expr U x = Ok l ->
  reach true false (NList l) m (NSub p n) \/ reach true false (NList l) m (NSup p n) ->
  exists e, mtex_parse U range be parse_float x size dpi s = Some (LPanic e).
Proof.
  intros * FR E R. unfold mtex_parse. rewrite E. unfold typeset.
  set (st := mk_state (mk_font "default" "rm" size) dpi).
  assert (P : exists e, go range be parse_float x true (NList l) (mk_visitor [] st false) s = LPanic e).
  { destruct R as [R|R]; eapply (reach_panics range FR be parse_float x _ _ _ _ _ R); [apply rf_sub|apply rf_sup]. }
  destruct P as (e & P). exists e. unfold mbind. now rewrite P.
Qed.
Example C40_case : exists l p n, parse_expr ascii_only "\frac{1}{a $x^2$}" = Ok l /\ reach true false (NList l) true (NSup p n).
Proof.
  do 3 eexists. split; [vm_compute; reflexivity|].
  eapply r_list; [now left|]. eapply r_macro; [apply ta_den; now left|right; right; now left|].
  eapply r_math; [right; now left|]. apply r_self.
Qed.

(** ** C41: symbols in math mode *)
Theorem C41_math_symbols : forall (A : arith) (S : Type) U range (be : @backend A S) parse_float x l p t,
  fair range -> parse_expr U x = Ok l -> reach true false (NList l) true (NSym p t) ->
  (In t good_math_symbols \/ In t bad_math_symbols) /\
  (In t bad_math_symbols -> forall size dpi s, exists e, mtex_parse U range be parse_float x size dpi s = Some (LPanic e)) /\
  (In t good_math_symbols -> total_backend be -> forall w ns st s,
     exists n s', go range be parse_float x w (NSym p t) (mk_visitor ns st true) s = LOk (mk_visitor (ns ++ [n]) st true, s')).
Proof.
  intros * FR E R. split.
  - destruct (in_dec string_dec t bad_math_symbols) as [I|N]; [now right|left].
    assert (F : fine (A:=A) (fun _ => None) x true (NSym p t)).
    { eapply parsed_fine; [exact E|exact R|]. intros RF. inversion RF. contradiction. }
    exact (proj1 (F eq_refl)).
  - split.
    + intros I size dpi s. unfold mtex_parse. rewrite E. unfold typeset.
      set (st := mk_state (mk_font "default" "rm" size) dpi).
      assert (P : exists e, go range be parse_float x true (NList l) (mk_visitor [] st false) s = LPanic e).
      { eapply (reach_panics range FR be parse_float x _ _ _ _ _ R). now apply rf_sym. }
      destruct P as (e & P). exists e. unfold mbind. now rewrite P.
    + intros I T w ns st s.
      assert (F : fine (A:=A) parse_float x true (NSym p t)).
      { eapply parsed_fine; [exact E|exact R|]. intros RF. inversion RF as [| |? ? I2| |]; subst.
        cbn [In good_math_symbols bad_math_symbols] in I, I2. 
        repeat (destruct I as [<-|I]; [intuition discriminate|]). destruct I. }
      assert (TG : total (go range be parse_float x w (NSym p t) (mk_visitor ns st true))).
      { apply (t_go range FR be parse_float x T). intros m y Ry. inversion Ry; subst. exact F. }
      destruct (TG s) as (v & s' & G). pose proof G as G'.
      assert (M : exists n, v = push n (mk_visitor ns st true)).
      { cbn [go v_math] in G. apply bind_ok in G as (h & s1 & _ & G). destruct h as [h|]; [|discriminate G].
        apply bind_ok in G as (n & s2 & _ & G). apply ret_ok in G as [-> _]. eauto. }
      destruct M as (n & ->). exists n, s'. exact G.
Qed.
Example C41_case : exists l p, parse_expr ascii_only "$a:b$" = Ok l /\ reach true false (NList l) true (NSym p ":").
Proof.
  do 2 eexists. split; [vm_compute; reflexivity|].
  eapply r_list; [now left|]. eapply r_math; [right; now left|]. apply r_self.
Qed.

(** ** C42: groups directly inside math *)
Theorem C42_groups_dropped : forall (A : arith) (S : Type) range (be : @backend A S) parse_float expr l size dpi s,
  typeset range be parse_float expr l size dpi s =
  typeset range be parse_float expr (map drop_groups l) size dpi s.
Proof.
  intros. unfold typeset, mbind. rewrite (drop_go range be parse_float expr (NList l)). reflexivity.
Qed.
(** In particular what is in such a group does not matter at all. *)
Corollary C42_content_irrelevant : forall (A : arith) (S : Type) range (be : @backend A S) parse_float expr d a pre g g' post b l1 l2 size dpi s,
  typeset range be parse_float expr (l1 ++ NMath d a (pre ++ NList g :: post) b :: l2) size dpi s =
  typeset range be parse_float expr (l1 ++ NMath d a (pre ++ NList g' :: post) b :: l2) size dpi s.
Proof.
  intros. rewrite C42_groups_dropped, (C42_groups_dropped A S range be parse_float expr (l1 ++ NMath d a (pre ++ NList g' :: post) b :: l2)).
  rewrite !map_app. cbn [map drop_groups]. rewrite !flat_map_app. reflexivity.
Qed.
Example C42_case : exists l, parse_expr ascii_only "$a{b^2}c$" = Ok l /\
  exists p q r t, map drop_groups l = [NMath "$" p [NWord q "a"; NWord r "c"] t].
Proof. eexists. split; [vm_compute; reflexivity|]. do 4 eexists. reflexivity. Qed.

(** ** C43: font type and math flag *)
(** A visited node only adds boxes; what it adds depends on the font state and
    the flag at its start, and these are afterwards what they were. *)
Theorem C43_restored : forall (A : arith) (S : Type) range (be : @backend A S) parse_float expr w n v s v' s',
  go range be parse_float expr w n v s = LOk (v', s') ->
  v_state v' = v_state v /\ v_math v' = v_math v /\
  exists added, v_nodes v' = v_nodes v ++ added /\
    forall earlier, go range be parse_float expr w n (mk_visitor earlier (v_state v) (v_math v)) s =
                    LOk (mk_visitor (earlier ++ added) (v_state v) (v_math v), s').
Proof.
  intros * G. destruct v as [ns st m]. pose proof (out_go range be parse_float expr n w) as O.
  rewrite O in G. destruct (go range be parse_float expr w n (mk_visitor [] st m) s) as [[v1 s1]|e] eqn:E; [|discriminate G].
  injection G as <- <-. cbn [v_nodes v_state v_math]. repeat split. exists (v_nodes v1). split; [reflexivity|].
  intros earlier. rewrite O, E. reflexivity.
Qed.
(** So the boxes of a sequence are those of its parts, set one after the other
    from the same font state and flag. *)
Theorem C43_sequence : forall (A : arith) (S : Type) range (be : @backend A S) parse_float expr l1 l2 st m s v s',
  go range be parse_float expr true (NList (l1 ++ l2)) (mk_visitor [] st m) s = LOk (v, s') ->
  exists n1 s1 n2,
    go range be parse_float expr true (NList l1) (mk_visitor [] st m) s = LOk (mk_visitor n1 st m, s1) /\
    go range be parse_float expr true (NList l2) (mk_visitor [] st m) s1 = LOk (mk_visitor n2 st m, s') /\
    v = mk_visitor (n1 ++ n2) st m.
Proof.
  intros * G.
  assert (FA : forall l1 l2 v s, mfold (go range be parse_float expr true) (l1 ++ l2) v s =
    mbind (mfold (go range be parse_float expr true) l1 v) (mfold (go range be parse_float expr true) l2) s).
  { intros a b. induction a as [|x a IH]; intros v0 s0; [reflexivity|]. cbn [app mfold]. unfold mbind in *.
    destruct (go range be parse_float expr true x v0 s0) as [[v1 s1]|]; [|reflexivity]. apply IH. }
  cbn [go] in G. rewrite FA in G. apply bind_ok in G as (v1 & s1 & G1 & G2).
  change (mfold (go range be parse_float expr true) l1) with (go range be parse_float expr true (NList l1)) in G1.
  change (mfold (go range be parse_float expr true) l2) with (go range be parse_float expr true (NList l2)) in G2.
  pose proof (out_nil _ _ _ _ _ _ (out_go range be parse_float expr (NList l1) true) G1) as V1.
  rewrite V1 in G2. rewrite (out_go range be parse_float expr (NList l2) true) in G2.
  destruct (go range be parse_float expr true (NList l2) (mk_visitor [] st m) s1) as [[v2 s2]|e] eqn:E2; [|discriminate G2].
  pose proof (out_nil _ _ _ _ _ _ (out_go range be parse_float expr (NList l2) true) E2) as V2.
  injection G2 as <- <-. exists (v_nodes v1), s1, (v_nodes v2). rewrite <- V1, <- V2. auto.
Qed.
(** Inside $...$ nodes are set in math mode and italic. *)
Theorem C43_inside : forall (A : arith) (S : Type) range (be : @backend A S) parse_float expr w d a x b st m s v s',
  go range be parse_float expr w (NMath d a [x] b) (mk_visitor [] st m) s = LOk (v, s') ->
  exists v1, go range be parse_float expr false x
    (mk_visitor [] (mk_state (mk_font (f_name (st_font st)) "it" (f_size (st_font st))) (st_dpi st)) true) s = LOk (v1, s') /\
  v_nodes v = v_nodes v1.
Proof.
  intros * G. cbn [go mfold] in G. apply bind_ok in G as (v1 & s1 & G & R). apply ret_ok in R as [-> ->].
  apply bind_ok in G as (v2 & s2 & G & R). apply ret_ok in R as [-> ->]. exists v2. split; [exact G|reflexivity].
Qed.

(** The characters of "a$b$c": text, math italic, text. *)
Fixpoint char_fonts (t : @Box.tnode float64) : list (string * string * bool) :=
  match t with
  | TChar c => [(c_sym c, f_type (c_font c), c_math c)]
  | TL _ _ _ _ l => flat_map char_fonts l
  | _ => []
  end.
Definition fonts_of (r : option (lres ((@Box.tnode float64 * option string) * unit))) :=
  match r with Some (LOk ((t, None), _)) => char_fonts t | _ => [] end.
Example C43_case :
  fonts_of (mtex_parse ascii_only id_range c27_be one_float "a$b+\sin$c" 10%float 72%float tt) =
  [("a", "rm", false); ("b", "it", true); ("+", "it", true); ("s", "rm", true); ("i", "rm", true); ("n", "rm", true);
   ("c", "rm", false)].
Proof. vm_compute. reflexivity. Qed.

(** ** C44: macros have handlers *)
Theorem C44_known_handled : forall range name sg, fair range ->
  known_macro name = Some sg -> exists h, handler range name = LOk (Some h).
Proof.
  intros range name sg FR K. rewrite (handler_range range name FR). apply macro_checked in K.
  unfold macro_check in K. destruct (handler id_range name) as [[h|]|]; try discriminate K. eauto.
Qed.
Theorem C44_parsed_handled : forall U range x l nm args, fair range ->
  parse_expr U x = Ok l -> In (NMacro nm args) (flat_map subnodes l) ->
  exists p name h, nm = Some (p, name) /\ handler range name = LOk (Some h).
Proof.
  intros U range x l nm args FR E I. destruct (GrammarFacts.parse_expr_sound U x l E) as (xs & _ & G).
  destruct (TreeFacts.grammar_leaves U) as (_ & GL & _). destruct (GL _ _ _ _ _ _ G) as [LV _].
  specialize (LV _ I). destruct LV as (p & t & sg & -> & K & _).
  destruct (C44_known_handled range t sg FR K) as (h & Hh). eauto 6.
Qed.
Example C44_case : exists l p args, parse_expr ascii_only "\sqrt[3]{\alpha}" = Ok l /\
  In (NMacro (Some (p, "\alpha")) args) (flat_map subnodes l).
Proof. do 3 eexists. split; [vm_compute; reflexivity|]. vm_compute. tauto. Qed.

(** ** C45: fractions *)
Section Fractions.
Context {A : arith} {S : Type}.
Variable range : Symbols.gset -> list string.
Variable be : @backend A S.
Variable parse_float : string -> option (Arith.F A).
Variable expr : string.
Notation tnode := (@Box.tnode A).
Notation go := (go range be parse_float expr).

(** The box an argument is set in: an HList of what its nodes give. *)
Definition argument (l : list node) (v : @visitor A) (s : S) (t : tnode) (s' : S) : Prop :=
  exists ns s1, go true (NList l) (mk_visitor [] (v_state v) (v_math v)) s = LOk (mk_visitor ns (v_state v) (v_math v), s1) /\
                hlist_of be ns true s1 = LOk (t, s').
Lemma argument_ok l v s t s' : handle_list be (go true) l (v_state v) (v_math v) s = LOk (t, s') -> argument l v s t s'.
Proof.
  intros H. unfold handle_list in H. apply bind_ok in H as (v1 & s1 & H1 & H2).
  change (mfold (go true) l) with (go true (NList l)) in H1.
  pose proof (out_nil _ _ _ _ _ _ (out_go range be parse_float expr (NList l) true) H1) as V1.
  exists (v_nodes v1), s1. rewrite <- V1. auto.
Qed.

(** The thickness the backend reports. *)
Definition underline (v : @visitor A) : M S (Arith.F A) := be_underline be (st_font (v_state v)) (st_dpi (v_state v)).

Theorem C45_frac_generic : fair range -> feqb A f0 f0 = true -> forall w p name a1 l1 b1 a2 l2 b2 v s v' s',
  In name ["\frac"; "\tfrac"; "\dfrac"] ->
  go w (NMacro (Some (p, name)) [NArg a1 l1 b1; NArg a2 l2 b2]) v s = LOk (v', s') ->
  exists rule s1 num s2 den s3 th s4 num' s5 den' s6 t,
    underline v s = LOk (rule, s1) /\
    argument l1 v s1 num s2 /\ argument l2 v s2 den s3 /\
    underline v s3 = LOk (th, s4) /\
    (if String.eqb name "\dfrac" then num' = num /\ den' = den /\ s6 = s4
     else shrink be num s4 = LOk (num', s5) /\ shrink be den s5 = LOk (den', s6)) /\
    v_nodes v' = v_nodes v ++ [t] /\
    (fltb A rule f0 = false -> exists me,
       be_metrics be "=" (mk_font (f_name (st_font (v_state v))) "it" (f_size (st_font (v_state v)))) (st_dpi (v_state v)) true s6 = LOk (me, s') /\
       stacked num' den' th rule (middle me) t).
Proof.
  intros FR Z0 * N G.
  assert (D : exists sty, (forall s, go w (NMacro (Some (p, name)) [NArg a1 l1 b1; NArg a2 l2 b2]) v s =
      mbind (handle_frac be (go true) sty [NArg a1 l1 b1; NArg a2 l2 b2] (v_state v) (v_math v)) (fun t => mret (push t v)) s) /\
      (String.eqb name "\dfrac" = match sty with DisplayStyle => true | TextStyle => false end)).
  { cbn [In] in N. destruct N as [<-|[<-|[<-|[]]]]; [exists TextStyle|exists TextStyle|exists DisplayStyle]; (split; [|reflexivity]); intros s0.
    - rewrite (go_macro range FR be parse_float expr w p "\frac" _ HFrac) by (vm_compute; reflexivity). reflexivity.
    - rewrite (go_macro range FR be parse_float expr w p "\tfrac" _ HTFrac) by (vm_compute; reflexivity). reflexivity.
    - rewrite (go_macro range FR be parse_float expr w p "\dfrac" _ HDFrac) by (vm_compute; reflexivity). reflexivity. }
  destruct D as (sty & D & SN). rewrite D in G. clear D N. rewrite SN. clear SN name.
  apply bind_ok in G as (t & s9 & G & R). apply ret_ok in R as [-> ->].
  unfold handle_frac in G. apply bind_ok in G as (rule & s1 & G1 & G). cbn [handle_frac_args] in G.
  apply bind_ok in G as (num & s2 & G2 & G). apply bind_ok in G as (den & s3 & G3 & G).
  apply argument_ok in G2. apply argument_ok in G3.
  destruct (fltb A rule f0) eqn:RN.
  - unfold genfrac in G. apply bind_ok in G as (th & s4 & G4 & G).
    apply bind_ok in G as (num' & s5 & G5 & G). apply bind_ok in G as (den' & s6 & G6 & _).
    exists rule, s1, num, s2, den, s3, th, s4, num', s5, den', s6, t.
    do 4 (split; [assumption|]). split; [|split; [reflexivity|intros EE; rewrite RN in EE; discriminate EE]].
    destruct sty; [|auto]. apply ret_ok in G5 as [-> ->]. apply ret_ok in G6 as [-> ->]. auto.
  - apply (genfrac_ok be Z0) in G as (th & s4 & num' & s5 & den' & s6 & me & bx & s7 & G4 & G5 & G6 & GM & ST & E); [|assumption].
    cbn in E. destruct E as [-> ->].
    exists rule, s1, num, s2, den, s3, th, s4, num', s5, den', s6, bx.
    do 4 (split; [assumption|]). split; [|split; [reflexivity|intros _; exists me; auto]].
    destruct sty; [|auto]. cbn [style_shrink] in G5, G6. apply ret_ok in G5 as [-> ->]. apply ret_ok in G6 as [-> ->]. auto.
Qed.

Theorem C45_binom_generic : fair range -> feqb A f0 f0 = true -> fltb A f0 f0 = false -> forall w p a1 l1 b1 a2 l2 b2 v s v' s',
  go w (NMacro (Some (p, "\binom")) [NArg a1 l1 b1; NArg a2 l2 b2]) v s = LOk (v', s') ->
  exists num s2 den s3 th s4 num' s5 den' s6 me s7 bx t,
    argument l1 v s num s2 /\ argument l2 v s2 den s3 /\
    underline v s3 = LOk (th, s4) /\
    shrink be num s4 = LOk (num', s5) /\ shrink be den s5 = LOk (den', s6) /\
    be_metrics be "=" (mk_font (f_name (st_font (v_state v))) "it" (f_size (st_font (v_state v)))) (st_dpi (v_state v)) true s6 = LOk (me, s7) /\
    v_nodes v' = v_nodes v ++ [t] /\ stacked num' den' th f0 (middle me) bx /\ parenthesised be (v_state v) bx s7 t s'.
Proof.
  intros FR Z0 ZL * G.
  rewrite (go_macro range FR be parse_float expr w p "\binom" _ HBinom) in G by (vm_compute; reflexivity).
  apply bind_ok in G as (t & s9 & G & R). apply ret_ok in R as [-> ->].
  cbn [Mtex.handle_macro handle_binom] in G. unfold handle_binom in G. cbn [handle_frac_args] in G.
  apply bind_ok in G as (num & s2 & G2 & G). apply bind_ok in G as (den & s3 & G3 & G).
  apply argument_ok in G2. apply argument_ok in G3.
  apply (genfrac_ok be Z0) in G as (th & s4 & num' & s5 & den' & s6 & me & bx & s7 & G4 & G5 & G6 & GM & ST & E); [|assumption].
  cbn [String.eqb Ascii.eqb Bool.eqb negb orb] in E.
  apply (delim_ok be Z0) in E.
  2:{ destruct ST as (? & ? & ? & _ & _ & _ & ->). exact I. }
  exists num, s2, den, s3, th, s4, num', s5, den', s6, me, s7, bx, t. do 8 (split; [first [assumption|reflexivity]|]). assumption.
Qed.
End Fractions.

Corollary C45_frac : forall S range (be : @backend float64 S) parse_float expr, fair range ->
  forall w p name a1 l1 b1 a2 l2 b2 v s v' s',
  In name ["\frac"; "\tfrac"; "\dfrac"] ->
  go range be parse_float expr w (NMacro (Some (p, name)) [NArg a1 l1 b1; NArg a2 l2 b2]) v s = LOk (v', s') ->
  exists rule s1 num s2 den s3 th s4 num' s5 den' s6 t,
    underline be v s = LOk (rule, s1) /\
    argument range be parse_float expr l1 v s1 num s2 /\ argument range be parse_float expr l2 v s2 den s3 /\
    underline be v s3 = LOk (th, s4) /\
    (if String.eqb name "\dfrac" then num' = num /\ den' = den /\ s6 = s4
     else shrink be num s4 = LOk (num', s5) /\ shrink be den s5 = LOk (den', s6)) /\
    v_nodes v' = v_nodes v ++ [t] /\
    (fltb float64 rule f0 = false -> exists me,
       be_metrics be "=" (mk_font (f_name (st_font (v_state v))) "it" (f_size (st_font (v_state v)))) (st_dpi (v_state v)) true s6 = LOk (me, s') /\
       stacked num' den' th rule (middle me) t).
Proof. intros S range be parse_float expr FR. apply C45_frac_generic; [exact FR|reflexivity]. Qed.
Corollary C45_binom : forall S range (be : @backend float64 S) parse_float expr, fair range ->
  forall w p a1 l1 b1 a2 l2 b2 v s v' s',
  go range be parse_float expr w (NMacro (Some (p, "\binom")) [NArg a1 l1 b1; NArg a2 l2 b2]) v s = LOk (v', s') ->
  exists num s2 den s3 th s4 num' s5 den' s6 me s7 bx t,
    argument range be parse_float expr l1 v s num s2 /\ argument range be parse_float expr l2 v s2 den s3 /\
    underline be v s3 = LOk (th, s4) /\
    shrink be num s4 = LOk (num', s5) /\ shrink be den s5 = LOk (den', s6) /\
    be_metrics be "=" (mk_font (f_name (st_font (v_state v))) "it" (f_size (st_font (v_state v)))) (st_dpi (v_state v)) true s6 = LOk (me, s7) /\
    v_nodes v' = v_nodes v ++ [t] /\ stacked num' den' th f0 (middle me) bx /\ parenthesised be (v_state v) bx s7 t s'.
Proof. intros S range be parse_float expr FR. apply C45_binom_generic; [exact FR|reflexivity|reflexivity]. Qed.

(** Centring, in exact arithmetic: a box of width [w] packed into [W] >= [w]
    starts within half a unit of the middle position. *)
Local Open Scope Q_scope.
Lemma this_minus (a b : Qc) : this (a - b)%Qc == this a - this b.
Proof.
  change (Qred (this a + Qred (- this b)) == this a - this b).
  rewrite (Qred_correct (this a + Qred (- this b))), (Qred_correct (- this b)). reflexivity.
Qed.
Lemma this_half (a : Qc) : this (a / (1 + 1))%Qc == this a * (1 # 2).
Proof.
  change (Qred (this a * Qred (/ Qred (1 + 1))) == this a * (1 # 2)).
  rewrite (Qred_correct (this a * Qred (/ Qred (1 + 1)))). reflexivity.
Qed.
Theorem C45_centred_exact : forall (W w : Qc) x t,
  centred (A:=exact) (Fin W) x t -> t_width x = Fin w -> (forall g, x <> TGlue g) ->
  this w <= this W -> this W - this w <= 2 * billion ->
  within (1 # 2) (hpos (t_glue t) f0 [glue_ss]) (Fin ((W - w) / (1 + 1))).
Proof.
  intros W w x t (b & gs & -> & _) Ew NG Le Bd.
  set (l := [glue_ss; x; glue_ss]).
  pose proof (C26_hpack_glue exact (Fin W) false b f0 gs l) as GS. cbv zeta in GS.
  set (t := hpack (A:=exact) (Fin W) false (TL KHList b f0 gs l)) in *.
  assert (TW : t_width t = Fin W) by reflexivity. rewrite TW in GS.
  assert (SW : fsum (map t_width l) = Fin w).
  { subst l. cbn [map]. rewrite !fsum_cons, fsum_nil. cbn [t_width glue_ss g_width]. rewrite f0_exact, Ew.
    now rewrite xadd_0_l, !xadd_0_r. }
  rewrite SW in GS. set (d := (W - w)%Qc).
  assert (SD : xsub (Fin W) (Fin w) = Fin d) by reflexivity.
  change (fsub exact (Fin W) (Fin w)) with (xsub (Fin W) (Fin w)) in GS. rewrite SD in GS.
  assert (D0 : 0 <= this d).
  { unfold d. rewrite this_minus. lra. }
  assert (DB : this d <= 2 * billion).
  { unfold d. rewrite this_minus. lra. }
  assert (TS : forall o, (o <= 3)%nat -> tot_stretch l o = if Nat.eqb o 1 then Fin (1 + 1) else Fin 0).
  { intros o Ho. unfold tot_stretch, l. cbn [flat_map glue_ss g_stretch_order g_stretch].
    assert (EX : match x with TGlue g => if Nat.eqb (g_stretch_order g) o then [g_stretch g] else [] | _ => [] end = []).
    { destruct x; try reflexivity. now destruct (NG g). }
    rewrite EX. destruct o as [|[|o]]; reflexivity. }
  assert (HP : hpos (t_glue t) f0 [glue_ss] = xofZ (glue_upto (t_glue t) [glue_ss])).
  { rewrite hpos_sum. cbn [map t_width glue_ss g_width]. rewrite fsum_cons, fsum_nil, f0_exact, !xadd_0_l. reflexivity. }
  rewrite HP. set (g := t_glue t) in *.
  pose proof (this_half d) as HALF.
  inversion GS as [g0 Z S0 E0|g0 NZ LT S0 HI ST E0|g0 NZ LT S0 HI ST E0|g0 NZ S0 RG E0]; subst g0.
  - rewrite natural_upto by assumption. apply zero_iff in Z.
    assert (Zd : this d == 0) by (change (this (match Fin d with Fin q => q | _ => 0%Qc end) == 0); rewrite Z; reflexivity).
    exists 0%Qc, (d / (1 + 1))%Qc. split; [reflexivity|]. split; [reflexivity|].
    rewrite HALF, Zd. split; unfold Qle; cbn; lia.
  - assert (O1 : gs_order g = 1%nat).
    { destruct HI as (Ho & Hz & _). rewrite TS in Hz by assumption.
      destruct (Nat.eqb_spec (gs_order g) 1) as [->|]; [reflexivity|]. exfalso. apply Hz. reflexivity. }
    rewrite O1, TS in ST by lia. cbn [Nat.eqb] in ST.
    assert (EG : gs_set g = Fin (d / (1 + 1))).
    { rewrite ST. reflexivity. }
    assert (EU : glue_upto g [glue_ss] = qround (d / (1 + 1))).
    { unfold glue_upto, elastics. cbn [flat_map elastic glue_ss]. rewrite S0. cbn [Z.eqb Pos.eqb].
      cbn [g_stretch_order g_stretch]. rewrite O1. cbn [Nat.eqb app].
      assert (FS : fsum [@f1 exact] = Fin 1) by reflexivity. rewrite FS, EG.
      assert (ML : fmul exact (Fin (d / (1 + 1))) (Fin 1) = Fin (d / (1 + 1))).
      { cbn [fmul exact xmul]. f_equal. ring. }
      rewrite ML, clamp_id; [reflexivity|]. rewrite HALF. clear - D0 DB. lra. }
    rewrite EU. exists (Q2Qc (inject_Z (qround (d / (1 + 1))))), (d / (1 + 1))%Qc.
    split; [reflexivity|]. split; [reflexivity|].
    pose proof (qround_bound (d / (1 + 1))) as B. cbn [this Q2Qc]. rewrite Qred_correct. exact B.
  - exfalso. cbn [fltb exact] in LT. rewrite f0_exact in LT. cbn [xltb] in LT. apply qltb_false in LT.
    apply NZ. apply zero_iff. f_equal. apply Qc_is_canon. unfold Qcle in LT. cbn [this Q2Qc] in LT |- *. apply Qle_antisym; assumption.
  - exfalso. destruct (fltb exact f0 (Fin d)) eqn:LT.
    + specialize (RG 1%nat). rewrite TS in RG by lia. cbn [Nat.eqb] in RG. apply zero_iff in RG; [|lia]. discriminate RG.
    + cbn [fltb exact] in LT. rewrite f0_exact in LT. cbn [xltb] in LT. apply qltb_false in LT.
      apply NZ. apply zero_iff. f_equal. apply Qc_is_canon. unfold Qcle in LT. cbn [this Q2Qc] in LT |- *. apply Qle_antisym; assumption.
Qed.
Local Close Scope Q_scope.
Local Open Scope Z_scope.

(** A case: 10 in 13.  The box starts at round(1.5) = 2. *)
Example C45_centred_case :
  hpos (t_glue (hpack (A:=exact) (xofZ 13) false (TL KHList (new_box f0 f0 f0) f0 gset0 [glue_ss; hbox (xofZ 10); glue_ss]))) f0 [glue_ss]
  = xofZ 2.
Proof. vm_compute. reflexivity. Qed.
(** The fraction 1/22 and the binomial coefficient: the boxes. *)
Fixpoint outline (t : @Box.tnode float64) : list string :=
  match t with
  | TChar c | TAccent c => [c_sym c]
  | TRule _ => ["rule"]
  | TGlue _ => ["glue"]
  | TBox _ => ["box"]
  | TKern _ _ => ["kern"]
  | TL k _ _ _ l => [match k with KVList => "v" | _ => "h" end] ++ flat_map outline l ++ ["."]
  end.
Definition outline_of (r : option (lres ((@Box.tnode float64 * option string) * unit))) :=
  match r with Some (LOk ((t, None), _)) => outline t | _ => [] end.
Example C45_case :
  outline_of (mtex_parse ascii_only id_range c27_be one_float "$\frac{1}{22}$" 10%float 72%float tt) =
  ["h"; "h"; "v"; "h"; "glue"; "h"; "1"; "."; "glue"; "."; "box"; "rule"; "box";
   "h"; "glue"; "h"; "2"; "2"; "."; "glue"; "."; "."; "box"; "."; "."] /\
  outline_of (mtex_parse ascii_only id_range c27_be one_float "$\binom{1}{2}$" 10%float 72%float tt) =
  ["h"; "h"; "h"; "("; "."; "h"; "v"; "h"; "glue"; "h"; "1"; "."; "glue"; "."; "box"; "rule"; "box";
   "h"; "glue"; "h"; "2"; "."; "glue"; "."; "."; "box"; "."; "h"; ")"; "."; "."; "."].
Proof. split; vm_compute; reflexivity. Qed.

(** ** C46: operator spacing *)
Theorem C46_spacing_generic : forall (A : arith) S range (be : @backend A S) parse_float expr, fair range ->
  feqb A f0 f0 = true -> forall w n sym pos v s v' s',
  In sym BinaryOperators_list \/ In sym RelationSymbols_list \/ In sym ArrowSymbols_list ->
  ((n = NSym pos sym /\ v_math v = true) \/ exists args, n = NMacro (Some (pos, sym)) args) ->
  go range be parse_float expr w n v s = LOk (v', s') ->
  exists ch s1, new_char be sym (v_state v) (v_math v) s = LOk (ch, s1) /\
  let tight := In sym BinaryOperators_list /\
               exists c, preceded expr pos c /\ In c ["{"; "("; "["; "<"]%char in
  let em := be_metrics be "m" (mk_font "it" "it" (f_size (st_font (v_state v)))) (st_dpi (v_state v)) true in
  (tight -> v_nodes v' = v_nodes v ++ [TChar ch]) /\
  (~ tight -> exists m1 m2 s2 b gs kern,
     em s1 = LOk (m1, s2) /\ em s2 = LOk (m2, s') /\
     v_nodes v' = v_nodes v ++
       [TL KHList b f0 gs ([new_kern (fmul A (m_adv m1) (frat 1 5)); TChar ch] ++ kern ++
                           [new_kern (fmul A (m_adv m2) (frat 1 5))])] /\
     (* the character's own right bearing, if any *)
     let bearing := fadd A (fsub A (m_adv (c_metrics ch)) (c_width ch)) f0 in
     kern = if feqb A bearing f0 then [] else [new_kern bearing]) /\
  (tight \/ ~ tight).
Proof.
  intros A S range be parse_float expr FR Z0 w n sym pos v s v' s' SP N G.
  apply (C20_is_spaced range sym FR) in SP.
  pose proof (go_spaced range be parse_float expr FR Z0 w n sym pos v s v' s' SP N G) as (ch & s1 & E & T1 & T2 & T3).
  assert (EQ : forall c, opening c = true <-> In c ["{"; "("; "["; "<"]%char).
  { intros c. unfold opening. rewrite existsb_exists. split.
    - intros (d & I & Q). apply Ascii.eqb_eq in Q. now subst.
    - intros I. exists c. split; [assumption|apply Ascii.eqb_refl]. }
  assert (TQ : (In sym BinaryOperators_list /\ exists c, preceded expr pos c /\ opening c = true) <->
               (In sym BinaryOperators_list /\ exists c, preceded expr pos c /\ In c ["{"; "("; "["; "<"]%char)).
  { split; intros [H1 (c & H2 & H3)]; (split; [assumption|]; exists c; split; [assumption|]; now apply EQ). }
  exists ch, s1. split; [exact E|]. cbv zeta. split.
  { intros T. apply TQ in T. destruct (T1 T) as [-> _]. reflexivity. }
  split; [|tauto].
  intros NT. destruct T2 as (m1 & m2 & s2 & b & gs & M1 & M2 & ->); [tauto|].
  exists m1, m2, s2, b, gs. eexists. split; [exact M1|]. split; [exact M2|]. split; [|reflexivity].
  cbn [push v_nodes app]. cbv zeta.
  match goal with |- context [feqb A ?x f0] => destruct (feqb A x f0); reflexivity end.
Qed.
Corollary C46_spacing : forall S range (be : @backend float64 S) parse_float expr, fair range ->
  forall w n sym pos v s v' s',
  In sym BinaryOperators_list \/ In sym RelationSymbols_list \/ In sym ArrowSymbols_list ->
  ((n = NSym pos sym /\ v_math v = true) \/ exists args, n = NMacro (Some (pos, sym)) args) ->
  go range be parse_float expr w n v s = LOk (v', s') ->
  exists ch s1, new_char be sym (v_state v) (v_math v) s = LOk (ch, s1) /\
  let tight := In sym BinaryOperators_list /\
               exists c, preceded expr pos c /\ In c ["{"; "("; "["; "<"]%char in
  let em := be_metrics be "m" (mk_font "it" "it" (f_size (st_font (v_state v)))) (st_dpi (v_state v)) true in
  (tight -> v_nodes v' = v_nodes v ++ [TChar ch]) /\
  (~ tight -> exists m1 m2 s2 b gs kern,
     em s1 = LOk (m1, s2) /\ em s2 = LOk (m2, s') /\
     v_nodes v' = v_nodes v ++
       [TL KHList b f0 gs ([new_kern (m_adv m1 * (1 / 5))%float; TChar ch] ++ kern ++
                           [new_kern (m_adv m2 * (1 / 5))%float])] /\
     let bearing := (m_adv (c_metrics ch) - c_width ch + 0)%float in
     kern = if (bearing =? 0)%float then [] else [new_kern (A:=float64) bearing]) /\
  (tight \/ ~ tight).
Proof.
  intros S range be parse_float expr FR.
  exact (C46_spacing_generic float64 S range be parse_float expr FR eq_refl).
Qed.
(** The operator at the start of an expression, and the one after "(". *)
Fixpoint leaf_kinds (t : @Box.tnode float64) : list string :=
  match t with
  | TChar c => [c_sym c]
  | TKern _ _ => ["kern"]
  | TL _ _ _ _ l => flat_map leaf_kinds l
  | _ => []
  end.
Definition kinds_of (r : option (lres ((@Box.tnode float64 * option string) * unit))) :=
  match r with Some (LOk ((t, None), _)) => leaf_kinds t | _ => [] end.
Example C46_case :
  kinds_of (mtex_parse ascii_only id_range c27_be one_float "$+a (-b) = c$" 10%float 72%float tt) =
  ["kern"; "+"; "kern"; "a"; "("; "-"; "b"; ")"; "kern"; "="; "kern"; "c"] /\
  preceded "$+a (-b) = c$" 5 "(" /\ (forall c, preceded "$+a (-b) = c$" 1 c -> c = "$"%char).
Proof.
  split; [vm_compute; reflexivity|]. split.
  - exists "$+a ", "". split; [reflexivity|]. split; [discriminate|intros d []].
  - intros c (a & b & E & N & B). cbn in E. injection E as E. destruct a as [|x a].
    + cbn in E. congruence.
    + cbn in E. injection E as -> E. destruct a; discriminate E.
Qed.

(** ** C52: typeset expressions can be shipped *)
Theorem C52_built : forall (A : arith) (S : Type) U range (be : @backend A S) parse_float x size dpi s t err s',
  mtex_parse U range be parse_float x size dpi s = Some (LOk ((t, err), s')) -> built be t.
Proof.
  intros * H. unfold mtex_parse in H. destruct (parse_expr U x); [|discriminate H|discriminate H].
  injection H as H. apply bind_ok in H as (t1 & s1 & H & R). apply ret_ok in R as [[= -> ->] ->].
  eapply typeset_built; exact H.
Qed.
Theorem C52_ship_never_panics : forall (S : Type) U range (be : @backend float64 S) parse_float x size dpi s t err s',
  mtex_parse U range be parse_float x size dpi s = Some (LOk ((t, err), s')) ->
  forall ox oy, exists t' st, ship_call ox oy t = LOk (t', st).
Proof.
  intros * H. apply (C36_built_never_panics S be t).
  - eapply C52_built; exact H.
  - destruct (C39_outcome float64 S U range be parse_float x size dpi s) as [(t0 & s0 & b & gs & l & E & ->)|(e & E)];
      rewrite H in E; [|discriminate E].
    injection E as -> _ _. eauto 6.
Qed.
