(** C88: the tokens of a source are those of the lexical grammar. *)
From Coq Require Import ZArith String Ascii List Bool Lia ZifyBool.
From Verif Require Import Utf8 GoScanner Token Lexer Utf8Facts LexFacts Grammar GrammarFacts Stream LexProps PanicSpec PanicFacts LexSpec Ast Parser PropParse.
Import ListNotations.
Local Open Scope string_scope.
Local Open Scope list_scope.
Local Open Scope Z_scope.

Section Lex.
Variable U : Z -> bool.
Notation letter := (letter U).
Notation item := (item U).
Notation comment := (comment U).
Notation lexical := (lexical U).
Notation lexed := (lexed U).
Notation is_letter := (is_letter U).

(** ** Character classes *)
Lemma letter_iff r : is_letter r = true <-> letter r.
Proof. unfold GoScanner.is_letter, LexSpec.letter, is_ascii_letter, in_range. destruct (Z.ltb_spec r 128); split; intros; [lia|lia| |]; [right; right; auto|]. destruct H0 as [|[|[]]]; auto; lia. Qed.
Lemma digit_iff r : is_decimal r = true <-> digit r.
Proof. unfold is_decimal, digit, in_range. lia. Qed.
Lemma hex_iff r : is_hex r = true <-> hexdigit r.
Proof. unfold is_hex, hexdigit, is_decimal, digit, in_range. lia. Qed.
Lemma figure_iff h r : is_dig h r = true <-> figure h r.
Proof. unfold is_dig, figure. rewrite orb_true_iff, Z.eqb_eq. destruct h; [rewrite hex_iff|rewrite digit_iff]; reflexivity. Qed.
Lemma blank_iff r : is_ws r = true <-> blank r.
Proof. unfold is_ws, blank. lia. Qed.
Lemma among_in s r : among s r <-> In r (map (fun a => Z.of_nat (nat_of_ascii a)) (list_ascii_of_string s)).
Proof. unfold among. rewrite in_map_iff. split; intros (a & H); exists a; intuition. Qed.
Lemma in_existsb r l : In r l <-> existsb (Z.eqb r) l = true.
Proof. rewrite existsb_exists. split; [intros I; exists r; split; [exact I|apply Z.eqb_refl]|intros (x & I & E)]. apply Z.eqb_eq in E. now subst. Qed.
Lemma among_b s r : among s r <-> existsb (Z.eqb r) (map (fun a => Z.of_nat (nat_of_ascii a)) (list_ascii_of_string s)) = true.
Proof. rewrite among_in. apply in_existsb. Qed.
Ltac amg := rewrite ?among_b; cbn [list_ascii_of_string map nat_of_ascii]; vm_compute (Z.of_nat _); cbn [existsb].
Lemma exp_iff r : (r =? 101) || (r =? 69) || (r =? 112) || (r =? 80) = true <-> among "eEpP" r.
Proof. rewrite among_in. cbn. lia. Qed.
Lemma sign_iff r : (r =? 43) || (r =? 45) = true <-> among "+-" r.
Proof. rewrite among_in. cbn. lia. Qed.
Lemma hexp_iff r : (r =? 120) || (r =? 88) = true <-> among "xX" r.
Proof. rewrite among_in. cbn. lia. Qed.
Lemma othp_iff r : (r =? 111) || (r =? 79) || (r =? 98) || (r =? 66) = true <-> among "oObB" r.
Proof. rewrite among_in. cbn. lia. Qed.
Lemma anyp_iff r : among "xXoObB" r <-> among "xX" r \/ among "oObB" r.
Proof. rewrite !among_in. cbn. lia. Qed.
Lemma esc_iff r : simple_escape r = true <-> among "abfnrtv\""" r.
Proof. rewrite among_in. unfold simple_escape. cbn. lia. Qed.
Lemma sym_iff r : is_symbol_rune r = true <-> among "$_=<>^/*-+!?':,;." r.
Proof. rewrite among_in. unfold is_symbol_rune. rewrite <- in_existsb. reflexivity. Qed.
Lemma bracket_iff r k : bracket_kind r = Some k <-> exists s, In (s, k) brackets /\ among s r.
Proof.
  unfold bracket_kind, brackets. split.
  - intros H. repeat match type of H with (if ?r =? ?n then _ else _) = _ => destruct (Z.eqb_spec r n) as [->|?]; [injection H as <-; eexists; (split; [cbn; eauto 10|rewrite among_in; cbn; lia])|] end. discriminate H.
  - intros (s & I & H). rewrite among_in in H. cbn in I.
    destruct I as [I|[I|[I|[I|[I|[I|[]]]]]]]; injection I as <- <-; cbn in H; destruct H as [H|[]]; subst r; reflexivity.
Qed.

(** ** Words, numbers, strings *)
Lemma begins_iff p P l : (forall r, p r = true <-> P r) -> (match l with [] => True | c :: _ => p (c_rune c) = false end) <-> ~ begins P l.
Proof.
  intros E. destruct l as [|c l]; cbn; [tauto|]. rewrite <- E. destruct (p (c_rune c)); split; intros H; try congruence; destruct (H eq_refl).
Qed.
Lemma span_iff p P l a b : (forall r, p r = true <-> P r) -> span p l = (a, b) <-> l = a ++ b /\ longest P a b.
Proof.
  intros E. unfold longest, all. split.
  - intros H. apply span_spec in H as (-> & F & B). rewrite (begins_iff p P b E) in B. repeat split; auto.
    eapply Forall_impl; [|exact F]. intros c; cbn; apply E.
  - intros (-> & F & B). apply span_all; [reflexivity| |now apply (begins_iff p P b E)].
    eapply Forall_impl; [|exact F]. intros c; cbn; apply E.
Qed.
Lemma exponent_iff l a b : (exists f, scan_exponent l = (f, a, b)) <-> l = a ++ b /\ exponent a b.
Proof.
  split.
  - intros (f & H). pose proof (scan_exponent_split _ _ _ _ H) as S. split; [exact S|]. subst l. unfold scan_exponent in H.
    remember (a ++ b) as l eqn:EL. destruct l as [|c l1].
    { injection H as <- <- <-. constructor. cbn. tauto. }
    destruct (_ || _) eqn:X.
    + apply exp_iff in X.
      destruct (match l1 with [] => ([], []) | d :: l2 => if (c_rune d =? 43) || (c_rune d =? 45) then ([d], l2) else ([], l1) end) as [sg l2] eqn:SG.
      destruct (span (is_dig false) l2) as [ds l3] eqn:SP. injection H as <- <- <-.
      apply (span_iff _ (figure false)) in SP as [-> L]; [|intros; apply figure_iff]. constructor; [exact X| |exact L].
      destruct l1 as [|d l1].
      * injection SG as <- E. left. split; [reflexivity|]. rewrite <- E. cbn. tauto.
      * destruct (_ || _) eqn:SI; injection SG as <- E.
        { right. exists d. split; [reflexivity|]. now apply sign_iff. }
        { left. split; [reflexivity|]. rewrite <- E. cbn. rewrite <- sign_iff, SI. discriminate. }
    + injection H as <- <- <-. constructor. cbn. rewrite <- exp_iff, X. discriminate.
  - intros [-> H]. destruct H as [b H|c sg ds b X SG L].
    + exists false. cbn [app]. unfold scan_exponent. destruct b as [|c b]; [reflexivity|].
      destruct (_ || _) eqn:E; [|reflexivity]. apply exp_iff in E. destruct (H E).
    + exists true. apply exp_iff in X. unfold scan_exponent. cbn [app]. cbv zeta. rewrite X.
      assert (SP : span (is_dig false) (ds ++ b) = (ds, b)) by (apply (span_iff _ (figure false)); [intros; apply figure_iff|auto]).
      destruct SG as [[-> SG]|(d & -> & SG)]; cbn [app].
      * destruct (ds ++ b) as [|d l2] eqn:E; [now rewrite SP|]. destruct ((c_rune d =? 43) || (c_rune d =? 45)) eqn:SI; [apply sign_iff in SI; destruct (SG SI)|]. now rewrite SP.
      * apply sign_iff in SG. rewrite SG, SP. reflexivity.
Qed.
Lemma frac_iff h l a b : scan_frac h l = (a, b) <-> l = a ++ b /\ exists fs e, a = fs ++ e /\ longest (figure h) fs (e ++ b) /\ exponent e b.
Proof.
  unfold scan_frac. split.
  - destruct (span (is_dig h) l) as [fs l1] eqn:S. destruct (scan_exponent l1) as [[f e] l2] eqn:X. intros [= <- <-].
    apply (span_iff _ (figure h)) in S as [-> L]; [|intros; apply figure_iff].
    destruct (proj1 (exponent_iff l1 e l2)) as [-> E]; [eauto|]. rewrite app_assoc. eauto 10.
  - intros [-> (fs & e & -> & L & E)]. rewrite <- app_assoc.
    assert (SP : span (is_dig h) (fs ++ e ++ b) = (fs, e ++ b)) by (apply (span_iff _ (figure h)); [intros; apply figure_iff|auto]).
    destruct (proj2 (exponent_iff (e ++ b) e b)) as (f & X); [auto|]. now rewrite SP, X.
Qed.
Lemma quoted_iff l : (forall a b, scan_string false l = (a, b) <-> l = a ++ b /\ quoted a b) /\
  (forall a b, scan_string true l = (a, b) <-> l = a ++ b /\
    ((~ begins (among "abfnrtv\""") (a ++ b) /\ quoted a b) \/ (exists c w, a = c :: w /\ among "abfnrtv\""" (c_rune c) /\ quoted w b))).
Proof.
  induction l as [|c l [IHf IHt]].
  - split; intros a b; cbn [scan_string]; split.
    + intros [= <- <-]. split; [reflexivity|constructor].
    + intros [E _]. symmetry in E. apply app_eq_nil in E as [-> ->]. reflexivity.
    + intros [= <- <-]. split; [reflexivity|]. left. split; [cbn; tauto|constructor].
    + intros [E _]. symmetry in E. apply app_eq_nil in E as [-> ->]. reflexivity.
  - assert (N : forall a b, (if (c_rune c =? 34) || (c_rune c =? 10) then ([c], l) else let (a, b) := scan_string (c_rune c =? 92) l in (c :: a, b)) = (a, b) <->
      c :: l = a ++ b /\ ((c_rune c = 34 \/ c_rune c = 10) /\ a = [c] \/ (c_rune c = 92 /\ exists w, a = c :: w /\ scan_string true l = (w, b)) \/
        (c_rune c <> 34 /\ c_rune c <> 10 /\ c_rune c <> 92 /\ exists w, a = c :: w /\ scan_string false l = (w, b)))).
    { intros a b. destruct ((c_rune c =? 34) || (c_rune c =? 10)) eqn:E.
      - split; [intros [= <- <-]; split; [reflexivity|left; split; [lia|reflexivity]]|].
        intros [EL [[_ ->]|[[? _]|(? & ? & _)]]]; [|lia|lia]. cbn in EL. now injection EL as <-.
      - destruct (Z.eqb_spec (c_rune c) 92) as [E2|E2].
        + destruct (scan_string true l) as [w b1] eqn:S. split.
          * intros [= <- <-]. split; [cbn; f_equal; now apply scan_string_split in S|]. right. left. eauto.
          * intros [EL [[? _]|[(_ & w' & -> & [= -> ->])|(? & ? & ? & _)]]]; [lia|reflexivity|lia].
        + destruct (scan_string false l) as [w b1] eqn:S. split.
          * intros [= <- <-]. split; [cbn; f_equal; now apply scan_string_split in S|]. right. right. repeat split; try lia. eauto.
          * intros [EL [[? _]|[(? & _)|(_ & _ & _ & w' & -> & [= -> ->])]]]; [lia|lia|reflexivity]. }
    assert (Q : forall a b, (c :: l = a ++ b /\ ((c_rune c = 34 \/ c_rune c = 10) /\ a = [c] \/ (c_rune c = 92 /\ exists w, a = c :: w /\ scan_string true l = (w, b)) \/
        (c_rune c <> 34 /\ c_rune c <> 10 /\ c_rune c <> 92 /\ exists w, a = c :: w /\ scan_string false l = (w, b)))) <-> c :: l = a ++ b /\ quoted a b).
    { intros a b. split; intros [EL H]; (split; [exact EL|]).
      - destruct H as [[H ->]|[(H & w & -> & S)|(H1 & H2 & H3 & w & -> & S)]].
        + now constructor.
        + apply IHt in S as [_ [[H1 H2]|(d & w' & -> & H1 & H2)]]; [now apply q_backslash|now apply q_escape].
        + apply IHf in S as [_ S]. now apply q_other.
      - destruct H as [|d b H|d e w b H1 H2 H3|d w b H1 H2 H3|d w b H1 H2 H3 H4]; cbn [app] in EL; try discriminate EL.
        + injection EL as <- ->. auto.
        + injection EL as <- ->. right. left. split; [exact H1|]. exists (e :: w). split; [reflexivity|]. apply IHt. split; [reflexivity|]. right. eauto.
        + injection EL as <- ->. right. left. split; [exact H1|]. exists w. split; [reflexivity|]. apply IHt. split; [reflexivity|]. left. auto.
        + injection EL as <- ->. right. right. repeat split; auto. exists w. split; [reflexivity|]. apply IHf. auto. }
    split; intros a b; cbn [scan_string andb].
    + rewrite N. apply Q.
    + destruct (simple_escape (c_rune c)) eqn:SE.
      * apply esc_iff in SE. destruct (scan_string false l) as [w b1] eqn:S. pose proof (proj1 (IHf w b1) eq_refl) as [EL QQ]. split.
        { intros [= <- <-]. split; [cbn; now f_equal|]. right. eauto. }
        { intros [EL2 [[H _]|(d & w' & -> & H1 & H2)]].
          - rewrite <- EL2 in H. destruct (H SE).
          - cbn in EL2. injection EL2 as <- EL2. assert (S2 : (w, b1) = (w', b)) by (apply IHf; auto). congruence. }
      * rewrite N. rewrite Q. assert (NS : ~ among "abfnrtv\""" (c_rune c)) by (rewrite <- esc_iff, SE; discriminate).
        split; intros [EL H]; (split; [exact EL|]).
        { left. split; [rewrite <- EL; exact NS|exact H]. }
        { destruct H as [[_ H]|(d & w' & -> & H1 & H2)]; [exact H|]. cbn in EL. injection EL as <- _. destruct (NS H1). }
Qed.
Lemma app_one {X} (x : X) l a b : x :: l = a ++ b -> a = [] /\ b = x :: l \/ exists a', a = x :: a' /\ l = a' ++ b.
Proof. destruct a as [|y a]; cbn; [auto|]. intros [= <- ->]. right. eauto. Qed.
Lemma tail_iff h l ds l2 a b : span (is_dig h) l = (ds, l2) ->
  (exists k, match l2 with
   | d :: l3 => if c_rune d =? 46 then let (f, l4) := scan_frac h l3 in (GFloat, ds ++ d :: f, l4)
                else match scan_exponent l2 with (isf, e, l4) => (if isf then GFloat else GInt, ds ++ e, l4) end
   | [] => (GInt, ds, [])
   end = (k, a, b)) <->
  l = a ++ b /\ all (figure h) ds /\ ((exists e, a = ds ++ e /\ longest (figure h) ds (e ++ b) /\ ~ begins (eq 46) (e ++ b) /\ exponent e b) \/
    (exists d fs e, a = ds ++ d :: fs ++ e /\ c_rune d = 46 /\ longest (figure h) fs (e ++ b) /\ exponent e b)).
Proof.
  intros S. pose proof S as S0. apply (span_iff _ (figure h)) in S as [-> [A B]]; [|intros; apply figure_iff].
  destruct l2 as [|d l3].
  - split.
    + intros (k & [= <- <- <-]). rewrite app_nil_r. split; [reflexivity|]. split; [exact A|]. left. exists []. rewrite app_nil_r. repeat split; auto. constructor. auto.
    + intros [E [_ [(e & -> & _ & _ & _)|(d & fs & e & -> & _)]]]; rewrite app_nil_r, <- app_assoc in E;
        apply (f_equal (@List.length chr)) in E; rewrite !app_length in E; cbn in E; [|lia].
      destruct e; [|cbn in E; lia]. destruct b; [|cbn in E; lia]. rewrite app_nil_r. eauto.
  - assert (HEAD : forall x y, ds ++ d :: l3 = (ds ++ x) ++ y -> d :: l3 = x ++ y) by (intros x y E; rewrite <- app_assoc in E; now apply app_inv_head in E).
    destruct (Z.eqb_spec (c_rune d) 46) as [E46|N46].
    + destruct (scan_frac h l3) as [f l4] eqn:SF. apply frac_iff in SF as [E3 (fs & e & -> & L & X)]. split.
      * intros (k & [= <- <- <-]). rewrite <- app_assoc. cbn [app]. split; [now rewrite E3|]. split; [exact A|]. right. eauto 10.
      * intros [E [_ [(e' & -> & _ & NB & _)|(d' & fs' & e' & -> & E' & L' & X')]]]; apply HEAD in E.
        { rewrite <- E in NB. destruct NB. cbn. lia. }
        { injection E as <- E. exists GFloat. 
          assert (SF : scan_frac h l3 = (fs' ++ e', b)) by (apply frac_iff; split; [exact E|]; eauto 10).
          assert (SF2 : scan_frac h l3 = (fs ++ e, l4)) by (apply frac_iff; split; [exact E3|]; eauto 10).
          rewrite SF in SF2. injection SF2 as -> ->. reflexivity. }
    + destruct (scan_exponent (d :: l3)) as [[isf e] l4] eqn:X. 
      destruct (proj1 (exponent_iff _ _ _) (ex_intro _ _ X)) as [EX XX]. split.
      * intros (k & [= <- <- <-]). rewrite <- app_assoc. split; [now rewrite EX|]. split; [exact A|]. left. exists e. rewrite <- EX.
        repeat split; auto; cbn; lia.
      * intros [E [_ [(e' & -> & _ & _ & X')|(d' & fs' & e' & -> & E' & _)]]]; apply HEAD in E.
        { destruct (proj2 (exponent_iff (d :: l3) e' b) (conj E X')) as (f & X2). rewrite X in X2. injection X2 as -> -> ->. eauto. }
        { injection E as <- _. lia. }
Qed.

Definition basis (l : list chr) : list chr * bool * list chr :=
  match l with
  | z :: c :: l2 =>
    if (c_rune z =? 48) && ((c_rune c =? 120) || (c_rune c =? 88)) then ([z; c], true, l2)
    else if (c_rune z =? 48) && ((c_rune c =? 111) || (c_rune c =? 79) || (c_rune c =? 98) || (c_rune c =? 66)) then ([z; c], false, l2)
    else ([], false, l)
  | _ => ([], false, l)
  end.
Definition tail (h : bool) (l : list chr) : gkind * list chr * list chr :=
  let (ds, l2) := span (is_dig h) l in
  match l2 with
  | d :: l3 => if c_rune d =? 46 then let (f, l4) := scan_frac h l3 in (GFloat, ds ++ d :: f, l4)
               else match scan_exponent l2 with (isf, e, l4) => (if isf then GFloat else GInt, ds ++ e, l4) end
  | [] => (GInt, ds, [])
  end.
Lemma tail_ok h l a b : (exists k, tail h l = (k, a, b)) <->
  l = a ++ b /\ exists ds, all (figure h) ds /\ ((exists e, a = ds ++ e /\ longest (figure h) ds (e ++ b) /\ ~ begins (eq 46) (e ++ b) /\ exponent e b) \/
    (exists d fs e, a = ds ++ d :: fs ++ e /\ c_rune d = 46 /\ longest (figure h) fs (e ++ b) /\ exponent e b)).
Proof.
  unfold tail. destruct (span (is_dig h) l) as [ds l2] eqn:S. rewrite (tail_iff h l ds l2 a b S). split.
  - intros (E & A & H). split; [exact E|]. exists ds. auto.
  - intros (E & ds' & A & H). assert (SS : span (is_dig h) l = (ds', skipn (List.length ds') l)).
    { apply (span_iff _ (figure h)); [intros; apply figure_iff|]. destruct H as [(e & -> & L & _)|(d & fs & e & -> & D & L & _)].
      - rewrite E, <- app_assoc, skipn_app, skipn_all, Nat.sub_diag. cbn [app skipn]. auto.
      - rewrite E, <- app_assoc, skipn_app, skipn_all, Nat.sub_diag. cbn [app skipn]. split; [reflexivity|]. split; [exact A|]. cbn. rewrite D.
        destruct h; unfold figure, hexdigit, digit; lia. }
    rewrite S in SS. injection SS as -> ->. auto.
Qed.
Lemma basis_digit l : begins digit l -> forall k a b, scan_number l = (k, a, b) <->
  exists pre h l1 a', basis l = (pre, h, l1) /\ tail h l1 = (k, a', b) /\ a = pre ++ a'.
Proof.
  intros B k a b.
  assert (T : forall h pre l1, (let (ds, l2) := span (is_dig h) l1 in
      match l2 with
      | d :: l3 => if c_rune d =? 46 then let (f, l4) := scan_frac h l3 in (GFloat, pre ++ ds ++ d :: f, l4)
                   else match scan_exponent l2 with (isf, e, l4) => (if isf then GFloat else GInt, pre ++ ds ++ e, l4) end
      | [] => (GInt, pre ++ ds, [])
      end) = (k, a, b) <-> exists a', tail h l1 = (k, a', b) /\ a = pre ++ a').
  { intros h pre l1. unfold tail. destruct (span (is_dig h) l1) as [ds [|d l3]].
    - split; [intros [= <- <- <-]; eauto|intros (a' & [= <- <- <-] & ->); reflexivity].
    - destruct (c_rune d =? 46).
      + destruct (scan_frac h l3) as [f l4]. split; [intros [= <- <- <-]; eauto|intros (a' & [= <- <- <-] & ->); reflexivity].
      + destruct (scan_exponent (d :: l3)) as [[f e] l4]. split; [intros [= <- <- <-]; eauto|intros (a' & [= <- <- <-] & ->); reflexivity]. }
  assert (R : forall pre h l1, basis l = (pre, h, l1) -> ((exists a', tail h l1 = (k, a', b) /\ a = pre ++ a') <->
     exists pre h l1 a', basis l = (pre, h, l1) /\ tail h l1 = (k, a', b) /\ a = pre ++ a')).
  { intros pre h l1 E. split; [intros (a' & H); eauto 10|]. intros (pre' & h' & l1' & a' & E' & H). rewrite E in E'. injection E' as <- <- <-. eauto. }
  (* a leading zero without a base letter is a digit *)
  assert (Z0 : forall z l1, c_rune z = 48 -> (let (ds, l2) := span (is_dig false) l1 in
      match l2 with
      | d :: l3 => if c_rune d =? 46 then let (f, l4) := scan_frac false l3 in (GFloat, [z] ++ ds ++ d :: f, l4)
                   else match scan_exponent l2 with (isf, e, l4) => (if isf then GFloat else GInt, [z] ++ ds ++ e, l4) end
      | [] => (GInt, [z] ++ ds, [])
      end) = (k, a, b) <-> exists a', tail false (z :: l1) = (k, a', b) /\ a = [] ++ a').
  { intros z l1 EZ. unfold tail. cbn [span]. replace (is_dig false (c_rune z)) with true by (rewrite EZ; reflexivity).
    destruct (span (is_dig false) l1) as [ds [|d l3]].
    - split; [intros [= <- <- <-]; eauto|intros (a' & [= <- <- <-] & ->); reflexivity].
    - destruct (c_rune d =? 46).
      + destruct (scan_frac false l3) as [f l4]. split; [intros [= <- <- <-]; eauto|intros (a' & [= <- <- <-] & ->); reflexivity].
      + destruct (scan_exponent (d :: l3)) as [[f e] l4]. split; [intros [= <- <- <-]; eauto|intros (a' & [= <- <- <-] & ->); reflexivity]. }
  unfold scan_number. destruct l as [|z l1]; [destruct B|].
  destruct (c_rune z =? 48) eqn:EZ.
  - destruct l1 as [|c l2].
    + etransitivity; [apply Z0; lia|]. apply R. reflexivity.
    + destruct ((c_rune c =? 120) || (c_rune c =? 88)) eqn:EX; [|destruct ((c_rune c =? 111) || (c_rune c =? 79) || (c_rune c =? 98) || (c_rune c =? 66)) eqn:EO]; cbv zeta.
      * etransitivity; [apply T|]. apply R. unfold basis. now rewrite EZ, EX.
      * etransitivity; [apply T|]. apply R. unfold basis. now rewrite EZ, EX, EO.
      * etransitivity; [apply Z0; lia|]. apply R. unfold basis. now rewrite EZ, EX, EO.
  - etransitivity; [apply T|]. apply R. unfold basis. destruct l1; [reflexivity|]. now rewrite EZ.
Qed.
Lemma basis_iff l pre h l1 : begins digit l -> basis l = (pre, h, l1) <-> l = pre ++ l1 /\ base h pre l1.
Proof.
  intros B. split.
  - unfold basis. destruct l as [|z [|c l2]]; [destruct B| |].
    + intros [= <- <- <-]. split; [reflexivity|]. constructor; [exact B|]. intros ? ? ? [=].
    + destruct (_ && _) eqn:E1; [|destruct (_ && (_ || _ || _ || _)) eqn:E2]; intros [= <- <- <-]; (split; [reflexivity|]).
      * constructor; [lia|]. apply hexp_iff. lia.
      * constructor; [lia|]. apply othp_iff. lia.
      * constructor; [exact B|]. intros z' c' r [= <- <- <-] Z. rewrite anyp_iff, <- hexp_iff, <- othp_iff. lia.
  - intros [-> H]. destruct H as [rest D N|z x rest Z X|z x rest Z X]; cbn [app] in *.
    + unfold basis. destruct rest as [|z [|c l2]]; [reflexivity|reflexivity|].
      destruct (Z.eqb_spec (c_rune z) 48) as [E|E]; [|reflexivity]. specialize (N z c l2 eq_refl E). rewrite anyp_iff, <- hexp_iff, <- othp_iff in N.
      destruct (_ || _); [tauto|]. destruct (_ || _); [tauto|]. reflexivity.
    + unfold basis. apply hexp_iff in X. rewrite X. replace (c_rune z =? 48) with true by lia. reflexivity.
    + unfold basis. pose proof X as X2. apply othp_iff in X. rewrite X. replace (c_rune z =? 48) with true by lia.
      destruct ((c_rune x =? 120) || (c_rune x =? 88)) eqn:E; [|reflexivity]. lia.
Qed.
Lemma number_iff l a b : begins digit l -> (exists k, scan_number l = (k, a, b)) <-> l = a ++ b /\ number a b.
Proof.
  intros B. split.
  - intros (k & H). apply basis_digit in H as (pre & h & l1 & a' & HB & HT & ->); [|exact B].
    apply basis_iff in HB as [-> HB]; [|exact B].
    destruct (proj1 (tail_ok h l1 a' b)) as [-> (ds & A & [(e & -> & L & P & X)|(d & fs & e & -> & D & L & X)])]; [eauto| |]; (split; [now rewrite app_assoc|]).
    + rewrite <- app_assoc in HB. eapply num_int; eassumption.
    + rewrite <- app_assoc in HB. cbn [app] in HB. rewrite <- app_assoc in HB. eapply num_point; eassumption.
  - intros [-> H]. destruct H as [h pre ds e b HB L P X|h pre ds d fs e b D HB A L X|d fs e b D F L X].
    + destruct (proj2 (tail_ok h (ds ++ e ++ b) (ds ++ e) b)) as (k & T).
      { split; [now rewrite app_assoc|]. exists ds. split; [apply L|]. left. exists e. auto. }
      exists k. apply basis_digit; [exact B|]. exists pre, h, (ds ++ e ++ b), (ds ++ e). repeat split; auto.
      apply basis_iff; [exact B|]. split; [now rewrite <- !app_assoc|exact HB].
    + destruct (proj2 (tail_ok h (ds ++ d :: fs ++ e ++ b) (ds ++ d :: fs ++ e) b)) as (k & T).
      { split; [rewrite <- app_assoc; cbn [app]; now rewrite <- app_assoc|]. exists ds. split; [exact A|]. right. exists d, fs, e. auto. }
      exists k. apply basis_digit; [exact B|]. exists pre, h, (ds ++ d :: fs ++ e ++ b), (ds ++ d :: fs ++ e). repeat split; auto.
      apply basis_iff; [exact B|]. split; [rewrite <- !app_assoc; cbn [app]; now rewrite <- !app_assoc|exact HB].
    + cbn in B. unfold digit in B. lia.
Qed.

(** ** Items *)
Definition kind_shape (k : gkind) : option shape :=
  match k with GEOF => None | GIdent => Some SWord | GInt | GFloat => Some SNumber | GString => Some SQuoted | GRune r => Some (SChar r) end.
Lemma number_digit a b : number a b -> begins digit (a ++ b) \/ exists d fs e, a = d :: fs ++ e /\ c_rune d = 46 /\ begins digit fs /\ longest (figure false) fs (e ++ b) /\ exponent e b.
Proof.
  intros H. destruct H as [h pre ds e b HB L P X|h pre ds d fs e b D HB A L X|d fs e b D F L X].
  - left. rewrite <- !app_assoc. destruct HB as [rest B _|z x rest Z _|z x rest Z _]; [exact B| |]; cbn; unfold digit; lia.
  - left. rewrite <- !app_assoc. cbn [app]. rewrite <- !app_assoc. destruct HB as [rest B _|z x rest Z _|z x rest Z _]; [exact B| |]; cbn; unfold digit; lia.
  - right. eauto 10.
Qed.
Lemma item_iff l s a b : (exists k, gscan U false l = (k, [], a, b) /\ kind_shape k = Some s) <-> l = a ++ b /\ item s a b.
Proof.
  destruct l as [|c l'].
  { split; [intros (k & [= <- <- <-] & H); discriminate H|].
    intros [E H]. symmetry in E. apply app_eq_nil in E as [-> ->]. exfalso. inversion H as [? ? W|? ? W|? ? ? ? W|]; subst.
    - destruct W as [W _]. now apply W.
    - apply number_digit in W as [W|(d & fs & e & W & _)]; [destruct W|discriminate W]. }
  assert (G : gscan U false (c :: l') = (if is_letter (c_rune c) then let (a, b) := span is_letter l' in (GIdent, [], c :: a, b)
     else if is_decimal (c_rune c) then match scan_number (c :: l') with (k, a, b) => (k, [], a, b) end
     else if c_rune c =? 34 then let (a, b) := scan_string false l' in (GString, [], c :: a, b)
     else if c_rune c =? 46 then match l' with d :: _ => if is_decimal (c_rune d) then let (a, b) := scan_frac false l' in (GFloat, [], c :: a, b) else (GRune (c_rune c), [], [c], l') | [] => (GRune (c_rune c), [], [c], l') end
     else (GRune (c_rune c), [], [c], l'))) by reflexivity.
  rewrite G. clear G.
  assert (LD : letter (c_rune c) -> ~ digit (c_rune c) /\ c_rune c <> 34 /\ c_rune c <> 46) by (unfold LexSpec.letter, digit; lia).
  (* which items can start with c *)
  assert (IH : forall s a b, c :: l' = a ++ b -> item s a b ->
    (letter (c_rune c) /\ s = SWord /\ word U a b) \/
    (digit (c_rune c) /\ s = SNumber /\ number a b) \/
    (c_rune c = 34 /\ s = SQuoted /\ exists w, a = c :: w /\ quoted w b) \/
    (c_rune c = 46 /\ s = SNumber /\ exists fs e, a = c :: fs ++ e /\ begins digit fs /\ longest (figure false) fs (e ++ b) /\ exponent e b) \/
    (s = SChar (c_rune c) /\ a = [c] /\ ~ letter (c_rune c) /\ ~ digit (c_rune c) /\ c_rune c <> 34 /\ (c_rune c = 46 -> ~ begins digit b))).
  { intros s0 a0 b0 E H. destruct H as [a0 b0 W|a0 b0 W|q a0 b0 Q W|d b0 H1 H2 H3 H4].
    - left. repeat split; try apply W. destruct a0 as [|d a0]; [destruct W as [W _]; now destruct W|]. injection E as <- _. destruct W as [_ [W _]]. now inversion W.
    - right. pose proof W as W0. apply number_digit in W as [W|(d & fs & e & -> & D & F & L & X)].
      + rewrite <- E in W. left. auto.
      + right. right. left. injection E as <- _. repeat split; auto. eauto 10.
    - right. right. left. injection E as <- _. eauto.
    - do 4 right. injection E as <- _. repeat split; auto. }
  destruct (is_letter (c_rune c)) eqn:L.
  { apply letter_iff in L. destruct (LD L) as (N1 & N2 & N3). destruct (span is_letter l') as [w b1] eqn:S.
    assert (S1 : span is_letter (c :: l') = (c :: w, b1)) by (cbn [span]; apply letter_iff in L; rewrite L, S; reflexivity). split.
    - intros (k & [= <- <- <-] & [= <-]). apply (span_iff _ letter) in S1 as [E LW]; [|intros; apply letter_iff]. split; [exact E|]. constructor. split; [discriminate|exact LW].
    - intros [E H]. apply IH in H; [|exact E]. destruct H as [(_ & -> & [NE W])|[(H & _)|[(H & _)|[(H & _)|(_ & _ & H & _)]]]]; try contradiction.
      assert (S2 : span is_letter (c :: l') = (a, b)) by (apply (span_iff _ letter); [intros; apply letter_iff|auto]).
      rewrite S1 in S2. injection S2 as <- <-. eauto. }
  assert (NL : ~ letter (c_rune c)) by (rewrite <- letter_iff, L; discriminate).
  destruct (is_decimal (c_rune c)) eqn:D.
  { apply digit_iff in D. assert (B : begins digit (c :: l')) by exact D.
    assert (N2 : c_rune c <> 34 /\ c_rune c <> 46) by (unfold digit in D; lia). destruct N2 as [N2 N3].
    destruct (scan_number (c :: l')) as [[k0 a0] b0] eqn:SN. pose proof (scan_number_split _ _ _ _ SN) as (_ & K & _). split.
    - intros (k & [= <- <- <-] & KS). destruct (proj1 (number_iff _ _ _ B) (ex_intro _ _ SN)) as [E W]. split; [exact E|].
      assert (s = SNumber) as -> by (destruct K as [-> | ->]; cbn in KS; congruence). now constructor.
    - intros [E H]. apply IH in H; [|exact E]. destruct H as [(H & _)|[(_ & -> & W)|[(H & _)|[(H & _)|(_ & _ & _ & H & _)]]]]; try contradiction.
      destruct (proj2 (number_iff _ _ _ B) (conj E W)) as (k & SN'). rewrite SN in SN'. injection SN' as -> -> ->. exists k. split; [reflexivity|].
      destruct K as [-> | ->]; reflexivity. }
  assert (ND : ~ digit (c_rune c)) by (rewrite <- digit_iff, D; discriminate).
  destruct (Z.eqb_spec (c_rune c) 34) as [Q|NQ].
  { destruct (scan_string false l') as [w b1] eqn:S. pose proof (proj1 (proj1 (quoted_iff l') w b1) S) as [E1 QW]. split.
    - intros (k & [= <- <- <-] & [= <-]). split; [cbn; now f_equal|]. now constructor.
    - intros [E H]. apply IH in H; [|exact E]. destruct H as [(H & _)|[(H & _)|[(_ & -> & w' & -> & W)|[(H & _)|(_ & _ & _ & _ & H & _)]]]]; try contradiction; [|lia].
      injection E as E. assert (S2 : scan_string false l' = (w', b)) by (apply quoted_iff; auto). rewrite S in S2. injection S2 as -> ->. eauto. }
  destruct (Z.eqb_spec (c_rune c) 46) as [P|NP].
  - destruct l' as [|d l2].
    + split.
      * intros (k & [= <- <- <-] & [= <-]). split; [reflexivity|]. constructor; auto.
      * intros [E H]. apply IH in H; [|exact E]. destruct H as [(H & _)|[(H & _)|[(H & _)|[(_ & _ & fs & e & -> & F & _)|(-> & -> & _)]]]]; try contradiction.
        { injection E as E. destruct fs; [destruct F|discriminate E]. }
        { injection E as <-. eauto. }
    + destruct (is_decimal (c_rune d)) eqn:DD.
      * destruct (scan_frac false (d :: l2)) as [f b1] eqn:SF. pose proof (proj1 (frac_iff _ _ _ _) SF) as [E1 (fs & e & -> & LF & X)]. split.
        { intros (k & [= <- <- <-] & [= <-]). split; [cbn; now f_equal|]. constructor. constructor; auto.
          destruct fs as [|d' fs].
          - destruct e as [|d' e]; cbn in E1.
            + subst b1. destruct LF as [_ LF]. exfalso. apply LF. cbn. left. now apply digit_iff.
            + injection E1 as <- _. destruct LF as [_ LF]. exfalso. apply LF. cbn. left. now apply digit_iff.
          - injection E1 as <- _. cbn. now apply digit_iff. }
        { intros [E H]. apply IH in H; [|exact E]. destruct H as [(H & _)|[(H & _)|[(H & _)|[(_ & -> & fs' & e' & -> & F & LF' & X')|(-> & -> & _ & _ & _ & H)]]]]; try contradiction.
          - injection E as E. assert (S2 : scan_frac false (d :: l2) = (fs' ++ e', b)) by (apply frac_iff; split; [exact E|eauto 10]). rewrite SF in S2. injection S2 as -> ->. eauto.
          - injection E as <-. destruct (H P). cbn. now apply digit_iff. }
      * assert (NDD : ~ digit (c_rune d)) by (rewrite <- digit_iff, DD; discriminate). split.
        { intros (k & [= <- <- <-] & [= <-]). split; [reflexivity|]. constructor; auto. }
        { intros [E H]. apply IH in H; [|exact E]. destruct H as [(H & _)|[(H & _)|[(H & _)|[(_ & _ & fs & e & -> & F & _)|(-> & -> & _)]]]]; try contradiction.
          - injection E as E. destruct fs as [|d' fs]; [destruct F|]. injection E as <- _. contradiction.
          - injection E as <-. eauto. }
  - split.
    + intros (k & [= <- <- <-] & [= <-]). split; [reflexivity|]. constructor; auto.
    + intros [E H]. apply IH in H; [|exact E]. destruct H as [(H & _)|[(H & _)|[(H & _)|[(H & _)|(-> & -> & _)]]]]; try contradiction. injection E as <-. eauto.
Qed.

Lemma item_scan s a b : item s a b -> exists k, gscan U false (a ++ b) = (k, [], a, b) /\ kind_shape k = Some s.
Proof. intros H. apply item_iff. auto. Qed.
Lemma scan_item l k sk a b : gscan U false l = (k, sk, a, b) -> sk = [] /\ l = a ++ b /\
  match kind_shape k with Some s => item s a b | None => a = [] /\ b = [] end.
Proof.
  intros G. pose proof (gscan_split _ _ _ _ _ _ _ G) as (E & _ & S & _ & K). rewrite (S eq_refl) in *. cbn [app] in E. repeat split; auto.
  destruct (kind_shape k) as [s|] eqn:KS; [apply (item_iff l s a b); eauto|]. destruct k; try discriminate KS. exact K.
Qed.
Lemma item_cons s a b : item s a b -> exists c a', a = c :: a'.
Proof.
  intros H. destruct a as [|c a]; [|eauto]. exfalso. inversion H as [? ? W|? ? W|? ? ? ? W|]; subst.
  - destruct W as [W _]. now apply W.
  - apply number_digit in W as [W|(d & fs & e & W & _)]; [|discriminate W]. inversion H; subst. 
    destruct (item_scan _ _ _ H) as (k & G & KS). cbn [app] in G. apply gscan_split in G as (_ & _ & _ & _ & K).
    destruct k; cbn in KS; try discriminate KS; now destruct K.
Qed.
Lemma comment_iff n : forall l, (List.length l < n)%nat -> forall t a b, scan_comment U n l = (t, a, b) <-> l = a ++ b /\ comment a b t.
Proof.
  induction n as [|n IH]; [lia|]. intros l N t a b. cbn [Lexer.scan_comment]. split.
  - destruct (gscan U false l) as [[[k sk] a1] b1] eqn:G. apply scan_item in G as (-> & -> & I).
    assert (NB : kind_shape k <> None -> (List.length b1 < n)%nat).
    { intros K. destruct (kind_shape k) as [s|]; [|now destruct K]. apply item_cons in I as (c & a' & ->). rewrite app_length in N. cbn in N. lia. }
    assert (ST : forall t' a' b', kind_shape k <> None -> scan_comment U n b1 = (t', a', b') -> b1 = a' ++ b' /\ comment a' b' t').
    { intros t' a' b' K. apply IH. now apply NB. }
    destruct k; cbn [kind_shape] in *.
    + destruct I as [-> ->]. intros [= <- <- <-]. split; [reflexivity|constructor].
    + destruct (scan_comment U n b1) as [[t' a'] b'] eqn:E. intros [= <- <- <-]. destruct (ST _ _ _ ltac:(discriminate) eq_refl) as [-> C].
      split; [now rewrite app_assoc|]. eapply com_item; [exact I|discriminate|discriminate|exact C].
    + destruct (scan_comment U n b1) as [[t' a'] b'] eqn:E. intros [= <- <- <-]. destruct (ST _ _ _ ltac:(discriminate) eq_refl) as [-> C].
      split; [now rewrite app_assoc|]. eapply com_item; [exact I|discriminate|discriminate|exact C].
    + destruct (scan_comment U n b1) as [[t' a'] b'] eqn:E. intros [= <- <- <-]. destruct (ST _ _ _ ltac:(discriminate) eq_refl) as [-> C].
      split; [now rewrite app_assoc|]. eapply com_item; [exact I|discriminate|discriminate|exact C].
    + destruct (scan_comment U n b1) as [[t' a'] b'] eqn:E. intros [= <- <- <-]. destruct (ST _ _ _ ltac:(discriminate) eq_refl) as [-> C].
      split; [now rewrite app_assoc|]. eapply com_item; [exact I|discriminate|discriminate|exact C].
    + destruct (Z.eqb_spec r 10) as [->|N10].
      * intros [= <- <- <-]. split; [reflexivity|]. inversion I; subst. now constructor.
      * destruct (scan_comment U n b1) as [[t' a'] b'] eqn:E. intros [= <- <- <-]. destruct (ST _ _ _ ltac:(discriminate) eq_refl) as [-> C].
        split; [now rewrite app_assoc|]. destruct (Z.eqb_spec r 13) as [->|N13].
        { inversion I; subst. now apply com_return. }
        { eapply com_item; [exact I|congruence|congruence|exact C]. }
  - intros [-> C]. destruct C as [|c b H|c w b txt H C|s a w b txt I N10 N13 C].
    + reflexivity.
    + assert (I : item (SChar (c_rune c)) [c] b) by (constructor; unfold LexSpec.letter, digit; lia).
      apply item_scan in I as (k & G & K). destruct k; cbn in K; try discriminate K. injection K as ->. cbn [app] in *. rewrite G, H. reflexivity.
    + assert (I : item (SChar (c_rune c)) [c] (w ++ b)) by (constructor; unfold LexSpec.letter, digit; lia).
      apply item_scan in I as (k & G & K). destruct k; cbn in K; try discriminate K. injection K as ->. cbn [app] in *. rewrite G, H.
      assert (E : scan_comment U n (w ++ b) = (txt, w, b)) by (apply IH; [cbn in N; lia|auto]). rewrite E. reflexivity.
    + pose proof (item_cons _ _ _ I) as (c & a' & EA). apply item_scan in I as (k & G & K). rewrite <- app_assoc in *. rewrite G.
      assert (E : scan_comment U n (w ++ b) = (txt, w, b)) by (apply IH; [rewrite EA in N; cbn in N; rewrite app_length in N; lia|auto]).
      destruct k; cbn in K; try discriminate K; injection K as <-; try (rewrite E; reflexivity).
      destruct (Z.eqb_spec r 10) as [->|_]; [now destruct N10|]. destruct (Z.eqb_spec r 13) as [->|_]; [now destruct N13|]. rewrite E. reflexivity.
Qed.
Lemma scan_ws l k sk a b : gscan U true l = (k, sk, a, b) <-> exists l', span is_ws l = (sk, l') /\ gscan U false l' = (k, [], a, b).
Proof.
  unfold gscan. destruct (span is_ws l) as [sk0 l0]. split.
  - intros H. exists l0. destruct l0 as [|c l1].
    + injection H as <- <- <- <-. auto.
    + destruct (is_letter (c_rune c)); [destruct (span is_letter l1); injection H as <- <- <- <-; auto|].
      destruct (is_decimal (c_rune c)); [destruct (scan_number (c :: l1)) as [[k0 a0] b0]; injection H as <- <- <- <-; auto|].
      destruct (c_rune c =? 34); [destruct (scan_string false l1); injection H as <- <- <- <-; auto|].
      destruct (c_rune c =? 46); [|injection H as <- <- <- <-; auto]. destruct l1 as [|d l2]; [injection H as <- <- <- <-; auto|].
      destruct (is_decimal (c_rune d)); [destruct (scan_frac false (d :: l2))|]; injection H as <- <- <- <-; auto.
  - intros (l' & [= <- <-] & H). destruct l0 as [|c l1].
    + injection H as <- <- <-. auto.
    + destruct (is_letter (c_rune c)); [destruct (span is_letter l1); injection H as <- <- <-; auto|].
      destruct (is_decimal (c_rune c)); [destruct (scan_number (c :: l1)) as [[k0 a0] b0]; injection H as <- <- <-; auto|].
      destruct (c_rune c =? 34); [destruct (scan_string false l1); injection H as <- <- <-; auto|].
      destruct (c_rune c =? 46); [|injection H as <- <- <-; auto]. destruct l1 as [|d l2]; [injection H as <- <- <-; auto|].
      destruct (is_decimal (c_rune d)); [destruct (scan_frac false (d :: l2))|]; injection H as <- <- <-; auto.
Qed.
Lemma blank_span sk l : all blank sk -> ~ begins blank l -> span is_ws (sk ++ l) = (sk, l).
Proof. intros A B. apply (span_iff _ blank); [intros; apply blank_iff|]. repeat split; auto. Qed.

(** ** Tokens *)
Definition read_as (o : Z) (sk a after : list chr) (k : kind) (txt : string) : lexres :=
  LexOk (mk_lx (mk_tok k (o + clen sk) txt) sk a (peek after)) (mk_ls (o + clen sk + clen a) after).
Lemma scan_true l k sk a b : gscan U true l = (k, sk, a, b) -> l = sk ++ a ++ b /\ all blank sk /\ ~ begins blank (a ++ b) /\
  match kind_shape k with Some s => item s a b | None => a = [] /\ b = [] end.
Proof.
  intros H. apply scan_ws in H as (l' & S & G). apply (span_iff _ blank) in S as [-> [A B]]; [|intros; apply blank_iff].
  apply scan_item in G as (_ & -> & I). auto.
Qed.
Lemma true_scan sk s a b : all blank sk -> ~ begins blank a -> item s a b -> exists k, gscan U true (sk ++ a ++ b) = (k, sk, a, b) /\ kind_shape k = Some s.
Proof.
  intros A B I. pose proof (item_cons _ _ _ I) as (c & a' & EA). apply item_scan in I as (k & G & K). exists k. split; [|exact K].
  apply scan_ws. exists (a ++ b). split; [|exact G]. apply blank_span; [exact A|]. rewrite EA in *. exact B.
Qed.
Lemma lex_sound o l y s' : lex1 U (mk_ls o l) = LexOk y s' -> xk y <> KEOF ->
  exists sk a after, l = sk ++ a ++ after /\ all blank sk /\ lexical (xk y) (xt y) a after /\ LexOk y s' = read_as o sk a after (xk y) (xt y).
Proof.
  unfold Lexer.lex1. cbn [l_rest l_off]. destruct (gscan U true l) as [[[k sk] a] b] eqn:G.
  apply scan_true in G as (-> & A & B & I). unfold read_as.
  destruct k; cbn [kind_shape] in I.
  - intros [= <- <-] H. now destruct H.
  - intros [= <- <-] _. exists sk, a, b. cbn. repeat split; auto. now constructor.
  - intros [= <- <-] _. exists sk, a, b. cbn. repeat split; auto. now constructor.
  - intros [= <- <-] _. exists sk, a, b. cbn. repeat split; auto. now constructor.
  - intros [= <- <-] _. exists sk, a, b. cbn. repeat split; auto. now constructor.
  - inversion I as [| | |c b' H1 H2 H3 H4 E1 E2 E3]; subst a r b'.
    destruct (Z.eqb_spec (c_rune c) 92) as [E92|N92].
    { destruct (gscan U true b) as [[[k2 sk2] a2] b2] eqn:G. pose proof G as G0. apply scan_true in G as (-> & A2 & B2 & I2).
      destruct (Z.eqb_spec (peek (sk2 ++ a2 ++ b2)) 32) as [P|P]; intros [= <- <-] _; cbn [xk xt x_tok t_kind t_text].
      - assert (E : sk2 = [] /\ exists d, a2 = [d] /\ c_rune d = 32).
        { destruct sk2 as [|d sk2]; cbn in P; [|inversion A2; subst; unfold blank in *; lia]. split; [reflexivity|].
          destruct (kind_shape k2) as [s2|] eqn:K2.
          - pose proof (item_cons _ _ _ I2) as (d & a' & ->). cbn in P. inversion I2 as [a0 b0 W|a0 b0 W|q a0 b0 Q W|d' b0 D1 D2 D3 D4]; subst.
            + destruct W as [_ [W _]]. inversion W; subst. unfold LexSpec.letter in *. lia.
            + apply number_digit in W as [W|(d0 & fs & e & [= <- _] & W & _)]; [cbn in W; unfold digit in W; lia|lia].
            + lia.
            + eauto.
          - destruct I2 as [-> ->]. cbn in P. lia. }
        destruct E as [-> (d & -> & D)]. exists sk, [c; d], b2. cbn [app]. repeat split; auto. now constructor.
      - exists sk, (c :: sk2 ++ a2), b2. cbn [app]. rewrite <- app_assoc. repeat split; auto.
        destruct (kind_shape k2) as [s2|] eqn:K2.
        + pose proof (item_cons _ _ _ I2) as (d & a' & EA). econstructor; [exact E92|exact A2| |exact I2|].
          * rewrite EA in *. exact B2.
          * rewrite EA in *. destruct sk2; cbn in *; lia.
        + destruct I2 as [-> ->]. cbn [app raw_of]. rewrite app_nil_r. now constructor. }
    destruct (Z.eqb_spec (c_rune c) 32) as [E32|N32].
    { intros [= <- <-] _. exists sk, [c], b. cbn. repeat split; auto. now constructor. }
    destruct (Z.eqb_spec (c_rune c) 37) as [E37|N37].
    { destruct (scan_comment U (S (List.length b)) b) as [[t a2] b2] eqn:C. apply comment_iff in C as [-> C]; [|lia].
      intros [= <- <-] _. exists sk, (c :: a2), b2. cbn. repeat split; auto. now constructor. }
    destruct (is_symbol_rune (c_rune c)) eqn:SY.
    { intros [= <- <-] _. exists sk, [c], b. cbn [xk xt x_tok t_kind t_text app]; cbn; rewrite ?sapp_nil_r; repeat split; auto. constructor; [now apply sym_iff|exact H4]. }
    destruct (bracket_kind (c_rune c)) as [k|] eqn:BK; [|discriminate].
    intros [= <- <-] _. exists sk, [c], b. cbn [xk xt x_tok t_kind t_text app]; cbn; rewrite ?sapp_nil_r; repeat split; auto.
    apply bracket_iff in BK as (s0 & I0 & AM). eapply tok_bracket; eassumption.
Qed.

Lemma lex_complete o sk k txt a after : all blank sk -> lexical k txt a after -> lex1 U (mk_ls o (sk ++ a ++ after)) = read_as o sk a after k txt.
Proof.
  intros A L. unfold Lexer.lex1, read_as. cbn [l_rest l_off].
  assert (NC : forall c b, c_rune c <> 34 -> ~ letter (c_rune c) -> ~ digit (c_rune c) -> ~ blank (c_rune c) ->
    (c_rune c = 46 -> ~ begins digit b) -> gscan U true (sk ++ [c] ++ b) = (GRune (c_rune c), sk, [c], b)).
  { intros c b H1 H2 H3 H4 H5. destruct (true_scan sk (SChar (c_rune c)) [c] b A) as (k0 & G & K); [exact H4|now constructor|].
    destruct k0; cbn in K; try discriminate K. injection K as ->. exact G. }
  destruct L as [a b I|a b I|a b I|c b E|c d b E D|c sk2 s a b E A2 B2 I P|c sk2 E A2|p w b t E C|c b AM P|s k c b I AM].
  - destruct (true_scan sk SWord a b A) as (k0 & G & K); [|exact I|].
    { inversion I as [? ? W| | |]; subst. destruct W as [W [W1 _]]. destruct a; [auto|]. inversion W1; subst. unfold LexSpec.letter, blank in *. cbn. lia. }
    rewrite G. destruct k0; cbn in K; try discriminate K. reflexivity.
  - destruct (true_scan sk SNumber a b A) as (k0 & G & K); [|exact I|].
    { inversion I as [|? ? W| |]; subst. apply number_digit in W as [W|(d & fs & e & -> & W & _)]; [|cbn; unfold blank; lia].
      pose proof (item_cons _ _ _ I) as (d & a' & ->). cbn in *. unfold digit, blank in *. lia. }
    rewrite G. destruct k0; cbn in K; try discriminate K; reflexivity.
  - destruct (true_scan sk SQuoted a b A) as (k0 & G & K); [|exact I|].
    { inversion I; subst. cbn. unfold blank. lia. }
    rewrite G. destruct k0; cbn in K; try discriminate K. reflexivity.
  - rewrite NC by (unfold LexSpec.letter, digit, blank; lia). rewrite E. reflexivity.
  - change (sk ++ [c; d] ++ b) with (sk ++ [c] ++ (d :: b)). rewrite NC by (unfold LexSpec.letter, digit, blank; lia). rewrite E. cbn [Z.eqb Pos.eqb peek]. rewrite D. cbn [Z.eqb Pos.eqb].
    destruct (true_scan [] (SChar (c_rune d)) [d] b) as (k0 & G & K); [constructor|cbn; unfold blank; lia|constructor; unfold LexSpec.letter, digit; lia|].
    cbn [app] in G |- *. rewrite G. reflexivity.
  - pose proof (item_cons _ _ _ I) as (d & a' & EA).
    replace (sk ++ (c :: sk2 ++ a) ++ b) with (sk ++ [c] ++ (sk2 ++ a ++ b)) by (cbn; now rewrite app_assoc).
    rewrite NC by (unfold LexSpec.letter, digit, blank; lia). rewrite E. cbn [Z.eqb Pos.eqb].
    assert (PK : peek (sk2 ++ a ++ b) =? 32 = false).
    { apply Z.eqb_neq. rewrite EA in *. destruct sk2; cbn in *; lia. }
    rewrite PK. destruct (true_scan sk2 s a b A2 B2 I) as (k0 & G & K). rewrite G. reflexivity.
  - replace (sk ++ (c :: sk2) ++ []) with (sk ++ [c] ++ sk2) by (cbn; now rewrite app_nil_r).
    rewrite NC by (unfold LexSpec.letter, digit, blank; lia). rewrite E. cbn [Z.eqb Pos.eqb].
    assert (PK : peek sk2 =? 32 = false).
    { apply Z.eqb_neq. destruct sk2; cbn; [lia|]. inversion A2; subst. unfold blank in *. lia. }
    rewrite PK. pose proof (blank_span sk2 [] A2 (fun x => x)) as S. rewrite app_nil_r in S.
    unfold gscan. rewrite S. cbn [app raw_of]. rewrite app_nil_r. reflexivity.
  - change (sk ++ (p :: w) ++ b) with (sk ++ [p] ++ (w ++ b)). rewrite NC by (unfold LexSpec.letter, digit, blank; lia). rewrite E. cbn [Z.eqb Pos.eqb].
    assert (S : scan_comment U (S (List.length (w ++ b))) (w ++ b) = (t, w, b)) by (apply comment_iff; [lia|auto]).
    rewrite S. reflexivity.
  - pose proof AM as AM0. apply sym_iff in AM. rewrite NC; [| | | | |exact P].
    2-5: destruct AM0 as (x & I & ->); cbn in I; repeat (destruct I as [<-|I]; [cbn; unfold LexSpec.letter, digit, blank; lia|]); destruct I.
    destruct (Z.eqb_spec (c_rune c) 92) as [E|_]; [rewrite E in AM; discriminate AM|].
    destruct (Z.eqb_spec (c_rune c) 32) as [E|_]; [rewrite E in AM; discriminate AM|].
    destruct (Z.eqb_spec (c_rune c) 37) as [E|_]; [rewrite E in AM; discriminate AM|].
    rewrite AM. cbn. rewrite sapp_nil_r. reflexivity.
  - assert (BK : bracket_kind (c_rune c) = Some k) by (apply bracket_iff; eauto). rewrite NC.
    2-6: cbn in I; repeat (destruct I as [[= <- <-]|I]; [destruct AM as (x & [<-|[]] & ->); cbn; unfold LexSpec.letter, digit, blank; lia|]); destruct I.
    destruct (Z.eqb_spec (c_rune c) 92) as [E|_]; [rewrite E in BK; discriminate BK|].
    destruct (Z.eqb_spec (c_rune c) 32) as [E|_]; [rewrite E in BK; discriminate BK|].
    destruct (Z.eqb_spec (c_rune c) 37) as [E|_]; [rewrite E in BK; discriminate BK|].
    destruct (is_symbol_rune (c_rune c)) eqn:SY.
    { apply sym_iff in SY. exfalso. cbn in I. repeat (destruct I as [[= <- <-]|I]; [destruct AM as (x & [<-|[]] & AM); destruct SY as (y & J & SY); rewrite AM in SY; cbn in J; repeat (destruct J as [<-|J]; [discriminate SY|]); destruct J|]); destruct I. }
    rewrite BK. cbn. rewrite sapp_nil_r. reflexivity.
Qed.

(** ** Sources *)
Lemma lexes_lexed s xs s' : Lexes U s xs s' -> lexed (l_off s) (l_rest s) (map x_tok xs) (l_rest s').
Proof.
  induction 1 as [s|s x s1 xs s2 L K _ IH]; [constructor|]. destruct s as [o l]. cbn [l_off l_rest] in *.
  apply lex_sound in L as (sk & a & after & -> & A & T & E); [|exact K]. unfold read_as in E. injection E as -> ->. cbn in *. now constructor.
Qed.
Lemma lexed_lexes o l ts rest : lexed o l ts rest -> exists xs o', Lexes U (mk_ls o l) xs (mk_ls o' rest) /\ map x_tok xs = ts.
Proof.
  induction 1 as [o l|o sk k txt a after ts rest A T _ (xs & o' & IH & <-)]; [exists [], o; split; [constructor|reflexivity]|].
  pose proof (lex_complete o sk k txt a after A T) as E. unfold read_as in E.
  exists (mk_lx (mk_tok k (o + clen sk) txt) sk a (peek after) :: xs), o'. split; [|reflexivity].
  econstructor; [exact E| |exact IH]. cbn. inversion T; subst; try discriminate.
  cbn in *. repeat match goal with H : _ \/ _ |- _ => destruct H as [[= <- <-]|H]; [discriminate|] end. contradiction.
Qed.
Lemma splits_iff x ts rest : splits U x ts rest <-> lexed (l_off (init_lex x)) (l_rest (init_lex x)) ts rest.
Proof.
  unfold splits, init_lex, BOM. destruct (chars x) as [|c l]; cbn [begins].
  - split; [intros [(c & l & [=] & _)|[_ H]]; exact H|]. intros H. right. split; [tauto|exact H].
  - destruct (Z.eqb_spec (c_rune c) 65279) as [E|E]; cbn [l_off l_rest].
    + split; [intros [(c' & l' & [= <- <-] & _ & H)|[H _]]; [exact H|now destruct H]|]. intros H. left. eauto.
    + split; [intros [(c' & l' & [= <- <-] & H & _)|[_ H]]; [contradiction|exact H]|]. intros H. right. split; [congruence|exact H].
Qed.
Lemma eof_iff s : (exists s', EofStep U s s') <-> all blank (l_rest s).
Proof.
  destruct s as [o l]. cbn. split.
  - intros (s' & y & L & K). unfold Lexer.lex1 in L. cbn [l_rest l_off] in L. destruct (gscan U true l) as [[[k sk] a] b] eqn:G.
    apply scan_true in G as (-> & A & _ & I). destruct k; try (injection L as <- <-; discriminate K).
    + destruct I as [-> ->]. now rewrite app_nil_r.
    + exfalso. destruct (r =? 92); [destruct (peek b =? 32); destruct (gscan U true b) as [[[? ?] ?] ?]; injection L as <- <-; discriminate K|].
      destruct (r =? 32); [injection L as <- <-; discriminate K|].
      destruct (r =? 37); [destruct (scan_comment U _ b) as [[? ?] ?]; injection L as <- <-; discriminate K|].
      destruct (is_symbol_rune r); [injection L as <- <-; discriminate K|].
      destruct (bracket_kind r) as [k|] eqn:BK; [|discriminate L]. injection L as <- <-. cbn in K. subst k.
      apply bracket_iff in BK as (s & BK & _). cbn in BK. repeat (destruct BK as [[=]|BK]; []). destruct BK.
  - intros A. unfold EofStep, Lexer.lex1. cbn [l_rest l_off]. pose proof (blank_span l [] A (fun x => x)) as S. rewrite app_nil_r in S.
    unfold gscan. rewrite S. eexists. eexists. split; reflexivity.
Qed.
Lemma foreign_iff r : foreign U r <-> unhandled U r.
Proof.
  unfold foreign, unhandled. rewrite <- letter_iff, <- digit_iff, <- blank_iff.
  assert (N : ~ among " $_=<>^/*-+!?':,;.[]{}()\%""" r <-> is_symbol_rune r = false /\ bracket_kind r = None /\ r <> 92 /\ r <> 32 /\ r <> 37 /\ r <> 34).
  { rewrite among_in. unfold is_symbol_rune, bracket_kind. cbn. split.
    - intros H. repeat split; try lia. repeat match goal with |- (if ?r =? ?n then _ else _) = _ => destruct (Z.eqb_spec r n); [exfalso; lia|] end. reflexivity.
    - intros (H1 & H2 & H3) H. repeat (destruct H as [<-|H]; [first [discriminate H1|discriminate H2|lia]|]). destruct H. }
  rewrite N, <- !Bool.not_true_iff_false. tauto.
Qed.
Lemma stuck_iff s r : lex1 U s = LexPanic r <-> exists sk c after, l_rest s = sk ++ c :: after /\ all blank sk /\ foreign U (c_rune c) /\ r = c_rune c.
Proof.
  split.
  - intros L. pose proof (proj2 (foreign_iff r) (lex1_panic U s r L)) as F. unfold Lexer.lex1 in L. destruct (gscan U true (l_rest s)) as [[[k sk] a] b] eqn:G.
    apply scan_true in G as (-> & A & _ & I). destruct k; try discriminate L. cbn in I. inversion I as [| | |c b' H1 H2 H3 H4 E1 E2 E3]; subst a r0 b'.
    assert (E : r = c_rune c).
    { destruct (c_rune c =? 92); [destruct (peek b =? 32); destruct (gscan U true b) as [[[? ?] ?] ?]; discriminate L|].
      destruct (c_rune c =? 32); [discriminate L|]. destruct (c_rune c =? 37); [destruct (scan_comment U _ b) as [[? ?] ?]; discriminate L|].
      destruct (is_symbol_rune (c_rune c)); [discriminate L|]. destruct (bracket_kind (c_rune c)); [discriminate L|]. now injection L. }
    subst r. exists sk, c, b. auto.
  - intros (sk & c & after & E & A & F & ->). pose proof (proj1 (foreign_iff _) F) as (_ & _ & _ & SY & BK & N1 & N2 & N3 & N4).
    destruct F as (L & D & B & F). assert (I : item (SChar (c_rune c)) [c] after).
    { constructor; auto. intros H. destruct F. rewrite H. exists "."%char. cbn. split; [tauto|reflexivity]. }
    destruct (true_scan sk _ [c] after A B I) as (k & G & K). destruct k; cbn in K; try discriminate K. injection K as ->.
    unfold Lexer.lex1. rewrite E. cbn [app] in G. rewrite G. apply Z.eqb_neq in N1, N2, N3. rewrite N1, N2, N3, SY, BK. reflexivity.
Qed.
End Lex.

(** The tokens Next returns are exactly those of the lexical grammar. *)
Theorem C88_tokens U x ts : lexes_to U x ts <-> exists xs, Tokens U x xs /\ map x_tok xs = ts.
Proof.
  unfold lexes_to, Tokens, Reads. split.
  - intros (rest & S & B). apply splits_iff in S. apply lexed_lexes in S as (xs & o & L & <-).
    exists xs. split; [|reflexivity]. destruct (proj2 (eof_iff U (mk_ls o rest)) B) as (s' & E).
    exists s', (mk_ls o rest). split; [|exact E]. now destruct (init_lex x).
  - intros (xs & (s' & s & L & E) & <-). exists (l_rest s). split; [apply splits_iff; now apply lexes_lexed|]. apply (eof_iff U s). eauto.
Qed.
(** A source has at most one such reading. *)
Theorem C88_unique U x ts ts' : lexes_to U x ts -> lexes_to U x ts' -> ts = ts'.
Proof. intros (xs & T & <-)%C88_tokens (ys & T' & <-)%C88_tokens. now rewrite (Tokens_det U x xs ys T T'). Qed.
(** A source is all tokens, or it is refused because of one foreign character. *)
Theorem C88_total U x : (exists ts, lexes_to U x ts) \/ (exists r, refused U x r).
Proof.
  destruct (C02_lexing_total U x) as [(xs & T)|(xs & s & r & L & P & _)].
  - left. exists (map x_tok xs). apply C88_tokens. eauto.
  - right. exists r. apply stuck_iff in P as (sk & c & after & E & A & F & ->). exists (map x_tok xs), sk, c, after.
    split; [|auto]. rewrite <- E. apply splits_iff. now apply lexes_lexed.
Qed.
Theorem C88_exclusive U x ts r : lexes_to U x ts -> ~ refused U x r.
Proof.
  intros (xs & (s' & s & L & E) & <-)%C88_tokens (ts' & sk & c & after & S & A & F & ->).
  apply splits_iff, lexed_lexes in S as (ys & o & L' & _). assert (D : forall s0 xs s1, Lexes U s0 xs s1 -> (exists s2, EofStep U s1 s2) ->
    forall ys s3, Lexes U s0 ys s3 -> lex1 U s3 <> LexPanic (c_rune c)).
  { clear. induction 1 as [s|s x s1 xs s2 L K _ IH]; intros (s4 & y & E & Y) ys s3 M P; inversion M as [|? ? ? ? ? L' K' M']; subst.
    - congruence.
    - congruence.
    - congruence.
    - rewrite L in L'. injection L' as <- <-. eapply IH; try eassumption. exists s4, y. auto. }
  destruct (init_lex x) as [o0 l0]. eapply (D _ _ _ L); [eauto|exact L'|]. apply stuck_iff. cbn. eauto 10.
Qed.
(** ParseExpr returns a tree only for sources that are all tokens, and when it
    panics about an unhandled character, that is the first foreign one. *)
Theorem C88_parsed U x ns : parse_expr U x = Ok ns -> exists ts, lexes_to U x ts.
Proof. intros H. apply C05_grammar in H as (xs & T & _). exists (map x_tok xs). apply C88_tokens. eauto. Qed.
Theorem C88_unhandled U x r : parse_expr U x = Panic (PUnhandled r) -> refused U x r.
Proof.
  intros H. apply C01_panic_causes in H as (xs & s & L & P & _). apply stuck_iff in P as (sk & c & after & E & A & F & ->).
  exists (map x_tok xs), sk, c, after. split; [|auto]. rewrite <- E. apply splits_iff. now apply lexes_lexed.
Qed.
Example C88_ex : exists ts, lexes_to ascii_only "$\frac{x1}{0x1e+.5e3}$ % a""b" ts /\
  map (fun t => (t_kind t, t_pos t, t_text t)) ts =
  [(KSymbol, 0, "$"); (KMacro, 1, "\frac"); (KLbrace, 6, "{"); (KWord, 7, "x"); (KNumber, 8, "1"); (KRbrace, 9, "}"); (KLbrace, 10, "{");
   (KNumber, 11, "0x1e"); (KSymbol, 15, "+"); (KNumber, 16, ".5e3"); (KRbrace, 20, "}"); (KSymbol, 21, "$"); (KSpace, 22, " "); (KComment, 23, "% a""b")].
Proof.
  pose (x := "$\frac{x1}{0x1e+.5e3}$ % a""b"). destruct (lex_all ascii_only x) as [xs e] eqn:E.
  exists (map x_tok xs). split.
  - apply C88_tokens. exists xs. split; [|reflexivity]. destruct e as [[y s|r]|]; [eapply lex_all_tokens; exact E|exfalso|exfalso]; vm_compute in E; discriminate E.
  - vm_compute in E. injection E as <- _. reflexivity.
Qed.
Example C88_ex_refused : refused ascii_only "a #" 35.
Proof. apply C88_unhandled. vm_compute. reflexivity. Qed.
Print Assumptions C88_tokens.
Print Assumptions C88_unique.
Print Assumptions C88_total.
Print Assumptions C88_exclusive.
Print Assumptions C88_parsed.
Print Assumptions C88_unhandled.
