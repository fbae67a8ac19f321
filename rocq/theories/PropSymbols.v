(** Properties of the tables: Kind.String, symbol sets, tex2unicode. *)
From Coq Require Import ZArith String Ascii List Bool Lia Sorting.Sorted Sorting.Permutation.
From Verif Require Import Utf8 Utf8Facts Token SymTable SetTable Parser Symbols.
Import ListNotations.
Local Open Scope string_scope.
Local Open Scope list_scope.
Local Open Scope Z_scope.

(** ** C19 *)

(** Decimal notation, read from left to right. *)
Fixpoint decimal (acc : Z) (s : string) : option Z :=
  match s with
  | "" => Some acc
  | String a s' => if in_range 48 57 (byte a) then decimal (10 * acc + (byte a - 48)) s' else None
  end.
Definition integer (s : string) : option Z :=
  match s with
  | String "-" s' => option_map Z.opp (decimal 0 s')
  | _ => decimal 0 s
  end.

(** The declared kinds and their names, token/token.go:18-36. *)
Definition declared : list (Z * string) :=
  [(0, "Invalid"); (1, "Macro"); (2, "EmptyLine"); (3, "Comment"); (4, "Space"); (5, "Word");
   (6, "Number"); (7, "Symbol"); (8, "Lbrace"); (9, "Rbrace"); (10, "Lbrack"); (11, "Rbrack");
   (12, "Lparen"); (13, "Rparen"); (14, "Other"); (15, "Verbatim"); (16, "EOF")].

Lemma decimal_digits n z acc k :
  0 <= z -> z < 10 ^ Z.of_nat n -> (0 < n)%nat ->
  exists w, 0 <= w /\ decimal k (digits_fuel n z acc) = decimal (k * 10 ^ w + z) acc.
Proof.
  revert z acc k; induction n as [|n IH]; intros z acc k Z0 Zn N; [lia|].
  cbn [digits_fuel].
  assert (B : byte (ascii_of_N (Z.to_N (48 + z mod 10))) = 48 + z mod 10).
  { pose proof (Z.mod_pos_bound z 10). unfold byte. rewrite N_ascii_embedding; lia. }
  assert (D : forall k, decimal k (String (ascii_of_N (Z.to_N (48 + z mod 10))) acc) = decimal (10 * k + z mod 10) acc).
  { intros j. cbn [decimal]. rewrite B. unfold in_range. pose proof (Z.mod_pos_bound z 10).
    replace ((48 <=? 48 + z mod 10) && (48 + z mod 10 <=? 57)) with true by lia. f_equal. lia. }
  destruct (Z.ltb_spec z 10).
  - exists 1. split; [lia|]. rewrite D. f_equal. rewrite Z.mod_small by lia. lia.
  - assert ((0 < n)%nat).
    { destruct n; [|lia]. change (10 ^ Z.of_nat 1) with 10 in Zn. lia. }
    assert (P : 10 ^ Z.of_nat (S n) = 10 * 10 ^ Z.of_nat n).
    { rewrite Nat2Z.inj_succ, Z.pow_succ_r; lia. }
    destruct (IH (z / 10) (String (ascii_of_N (Z.to_N (48 + z mod 10))) acc) k) as (w & W & E).
    + apply Z.div_pos; lia.
    + apply Z.div_lt_upper_bound; lia.
    + lia.
    + exists (w + 1). split; [lia|]. rewrite E, D. f_equal. rewrite Z.pow_add_r by lia.
      pose proof (Z.div_mod z 10). change (10 ^ 1) with 10. lia.
Qed.

Lemma digits_enough z : 0 <= z -> z < 10 ^ Z.of_nat (S (Z.to_nat (Z.log2 z))).
Proof.
  intros Z0. rewrite Nat2Z.inj_succ, Z2Nat.id by apply Z.log2_nonneg.
  destruct (Z.eq_dec z 0) as [->|]; [reflexivity|].
  apply Z.lt_le_trans with (2 ^ Z.succ (Z.log2 z)); [apply Z.log2_spec; lia|].
  apply Z.pow_le_mono_l. pose proof (Z.log2_nonneg z). lia.
Qed.

Lemma digits_head n z acc : (0 < n)%nat -> exists a s, digits_fuel n z acc = String a s /\ in_range 48 57 (byte a) = true.
Proof.
  revert z acc; induction n as [|n IH]; intros z acc N; [lia|]. cbn [digits_fuel].
  assert (B : in_range 48 57 (byte (ascii_of_N (Z.to_N (48 + z mod 10)))) = true).
  { pose proof (Z.mod_pos_bound z 10). unfold byte, in_range. rewrite N_ascii_embedding; lia. }
  destruct (z <? 10); [eauto|]. destruct n; [cbn; eauto|]. apply IH. lia.
Qed.

Lemma integer_format z : integer (format_int z) = Some z.
Proof.
  unfold format_int. destruct (Z.ltb_spec z 0).
  - cbn [integer]. destruct (decimal_digits _ (- z) "" 0 ltac:(lia) (digits_enough (- z) ltac:(lia)) ltac:(lia)) as (w & W & ->).
    cbn. f_equal. lia.
  - destruct (decimal_digits _ z "" 0 ltac:(lia) (digits_enough z ltac:(lia)) ltac:(lia)) as (w & W & E).
    destruct (digits_head (S (Z.to_nat (Z.log2 z))) z "" ltac:(lia)) as (a & s & Ed & R).
    rewrite Ed in E |- *. destruct a as [[] [] [] [] [] [] [] []]; try discriminate R;
      cbn [integer]; rewrite E; cbn; f_equal; lia.
Qed.

Theorem C19_declared_names : forall i s, In (i, s) declared <-> 0 <= i < 17 /\ kind_string i = Some s.
Proof.
  intros i s. split.
  - intros H. cbn in H. repeat destruct H as [H|H]; try contradiction; injection H as <- <-;
      (split; [lia|reflexivity]).
  - intros (R & E). assert (C : i = 0 \/ i = 1 \/ i = 2 \/ i = 3 \/ i = 4 \/ i = 5 \/ i = 6 \/ i = 7 \/ i = 8 \/
      i = 9 \/ i = 10 \/ i = 11 \/ i = 12 \/ i = 13 \/ i = 14 \/ i = 15 \/ i = 16) by lia.
    repeat destruct C as [-> | C]; try subst i; vm_compute in E; injection E as <-; cbn; tauto.
Qed.

(** The declared constants, by their Go names. *)
Theorem C19_constants : map (fun k => (kind_int k, kind_string (kind_int k)))
    [KInvalid; KMacro; KEmptyLine; KComment; KSpace; KWord; KNumber; KSymbol; KLbrace; KRbrace; KLbrack; KRbrack; KLparen; KRparen; KOther; KVerbatim; KEOF] =
  map (fun p => (fst p, Some (snd p))) declared.
Proof. vm_compute. reflexivity. Qed.

Theorem C19_other_names : forall i, ~ 0 <= i < 17 ->
  exists d, kind_string i = Some (append "Kind(" (append d ")")) /\ integer d = Some i.
Proof.
  intros i R. exists (format_int i). split; [|apply integer_format].
  unfold kind_string. replace ((i <? 0) || _) with true by (cbn; lia). reflexivity.
Qed.

(** No int makes it panic. *)
Theorem C19_total : forall i, kind_string i <> None.
Proof.
  intros i. destruct (Z_lt_dec i 0) as [|A]; [|destruct (Z_lt_dec i 17) as [|B]].
  - destruct (C19_other_names i) as (? & -> & _); [lia|discriminate].
  - assert (C : i = 0 \/ i = 1 \/ i = 2 \/ i = 3 \/ i = 4 \/ i = 5 \/ i = 6 \/ i = 7 \/ i = 8 \/
      i = 9 \/ i = 10 \/ i = 11 \/ i = 12 \/ i = 13 \/ i = 14 \/ i = 15 \/ i = 16) by lia.
    repeat destruct C as [-> | C]; try subst i; vm_compute; discriminate.
  - destruct (C19_other_names i) as (? & -> & _); [lia|discriminate].
Qed.

Lemma append_inj_l a x y : append a x = append a y -> x = y.
Proof. induction a; cbn; intros E; [assumption|]. injection E; auto. Qed.
Lemma append_inj_r x y a : append x a = append y a -> x = y.
Proof.
  intros E. assert (L : String.length x = String.length y).
  { apply (f_equal String.length) in E. rewrite !sapp_length in E. lia. }
  revert y E L. induction x as [|c x IH]; intros [|d y] E L; try discriminate; [reflexivity|].
  cbn in E, L. injection E as <- E. f_equal. apply IH; [assumption|lia].
Qed.

(** Different ints have different names. *)
Theorem C19_injective : forall i j, kind_string i = kind_string j -> i = j.
Proof.
  intros i j E.
  assert (D : forall i, 0 <= i < 17 \/ ~ 0 <= i < 17) by (intros; lia).
  destruct (D i) as [Ri|Ri], (D j) as [Rj|Rj].
  - destruct (kind_string i) as [s|] eqn:Ei; [|now apply C19_total in Ei]. symmetry in E.
    pose proof (proj2 (C19_declared_names i s) (conj Ri Ei)) as Ii.
    pose proof (proj2 (C19_declared_names j s) (conj Rj E)) as Ij.
    cbn in Ii, Ij.
    repeat destruct Ii as [Ii|Ii]; try contradiction; injection Ii as <- <-;
      repeat destruct Ij as [Ij|Ij]; try contradiction; try discriminate Ij; injection Ij as <-; reflexivity.
  - destruct (C19_other_names j Rj) as (d & Ej & _). rewrite Ej in E.
    pose proof (proj2 (C19_declared_names i _) (conj Ri E)) as Ii. cbn in Ii.
    repeat destruct Ii as [Ii|Ii]; try contradiction; discriminate Ii.
  - destruct (C19_other_names i Ri) as (d & Ei & _). rewrite Ei in E. symmetry in E.
    pose proof (proj2 (C19_declared_names j _) (conj Rj E)) as Ij. cbn in Ij.
    repeat destruct Ij as [Ij|Ij]; try contradiction; discriminate Ij.
  - destruct (C19_other_names i Ri) as (d & Ei & Hi). destruct (C19_other_names j Rj) as (e & Ej & Hj).
    rewrite Ei, Ej in E. injection E as E. apply append_inj_r in E. congruence.
Qed.

Example C19_ex : kind_string 3 = Some "Comment" /\ kind_string 17 = Some "Kind(17)" /\ kind_string (-120) = Some "Kind(-120)".
Proof. repeat split; reflexivity. Qed.

(** ** C20 *)

(** [for k := range set] delivers each key once. *)
Definition fair (range : gset -> list string) : Prop := forall s, Permutation (range s) s.

Lemma has_in s k : set_has s k = true <-> In k s.
Proof.
  unfold set_has. rewrite existsb_exists. split.
  - intros (x & I & E). apply String.eqb_eq in E. now subst.
  - intros I. exists k. split; [assumption|]. apply String.eqb_refl.
Qed.

Lemma add_in s k j : In j (set_add s k) <-> j = k \/ In j s.
Proof.
  unfold set_add. destruct (set_has s k) eqn:E; cbn; [|intuition].
  apply has_in in E. intuition. now subst.
Qed.

Lemma fold_add_in l s j : In j (fold_left set_add l s) <-> In j l \/ In j s.
Proof. revert s; induction l as [|x l IH]; intros s; cbn; [intuition|]. rewrite IH, add_in. intuition. Qed.

Lemma add_nodup s k : NoDup s -> NoDup (set_add s k).
Proof.
  intros N. unfold set_add. destruct (set_has s k) eqn:E; [assumption|]. constructor; [|assumption].
  rewrite <- has_in, E. discriminate.
Qed.
Lemma fold_add_nodup l s : NoDup s -> NoDup (fold_left set_add l s).
Proof. revert s; induction l; intros s N; cbn; [assumption|]. now apply IHl, add_nodup. Qed.

Theorem C20_new_set_has : forall vs k, set_has (new_set vs) k = true <-> In k vs.
Proof. intros. rewrite has_in. unfold new_set. rewrite fold_add_in. cbn. tauto. Qed.

Lemma union_in range sets o k : fair range ->
  (In k (fold_left (fun o s => fold_left set_add (range s) o) sets o) <->
   (exists s, In s sets /\ In k s) \/ In k o).
Proof.
  intros F. revert o. induction sets as [|s l IH]; intros o; cbn.
  - split; [now right|]. intros [(s & [] & _)|]; assumption.
  - rewrite IH, fold_add_in. split.
    + intros [(s' & I & K)|[K|K]]; [left; eauto| |now right]. left. exists s. split; [now left|].
      eapply Permutation_in; eauto.
    + intros [(s' & [<-|I] & K)|K]; [|left; eauto|auto]. right. left.
      eapply Permutation_in; [|eassumption]. apply Permutation_sym, F.
Qed.

Theorem C20_union_has : forall range sets k, fair range ->
  (set_has (union_of range sets) k = true <-> exists s, In s sets /\ set_has s k = true).
Proof.
  intros range sets k F. rewrite has_in. unfold union_of. rewrite union_in by assumption. cbn.
  split.
  - intros [(s & I & K)|[]]. exists s. now rewrite has_in.
  - intros (s & I & K). rewrite has_in in K. eauto.
Qed.

(** Every set that the API builds has distinct keys. *)
Inductive Built (range : gset -> list string) : gset -> Prop :=
| Built_new vs : Built range (new_set vs)
| Built_union sets : Forall (Built range) sets -> Built range (union_of range sets).

Lemma built_nodup range s : Built range s -> NoDup s.
Proof.
  intros []; [apply fold_add_nodup; constructor|]. unfold union_of.
  assert (G : forall l o, NoDup o -> NoDup (fold_left (fun o s => fold_left set_add (range s) o) l o)).
  { induction l; intros o N; cbn; [assumption|]. now apply IHl, fold_add_nodup. }
  apply G. constructor.
Qed.

(** Byte-wise lexicographic order. *)
Inductive blt : string -> string -> Prop :=
| blt_nil a s : blt "" (String a s)
| blt_head a b s t : byte a < byte b -> blt (String a s) (String b t)
| blt_tail a s t : blt s t -> blt (String a s) (String a t).

Lemma byte_inj a b : byte a = byte b -> a = b.
Proof. unfold byte. intros E. rewrite <- (ascii_N_embedding a), <- (ascii_N_embedding b). f_equal. lia. Qed.

Lemma blt_trans a b c : blt a b -> blt b c -> blt a c.
Proof.
  intros H; revert c; induction H; intros c K; inversion K; subst; try (constructor; auto; fail).
  constructor. lia.
Qed.

Lemma compare_blt a b : match String.compare a b with Lt => blt a b | Eq => a = b | Gt => blt b a end.
Proof.
  revert b; induction a as [|x a IH]; intros [|y b]; cbn; try constructor.
  unfold Ascii.compare. destruct (N.compare_spec (N_of_ascii x) (N_of_ascii y)) as [E|E|E].
  - assert (x = y) by (apply byte_inj; unfold byte; now rewrite E). subst y.
    specialize (IH b). destruct (String.compare a b); [now subst|now constructor|now constructor].
  - constructor. unfold byte. lia.
  - constructor. unfold byte. lia.
Qed.

Lemma insert_perm k l : Permutation (insert_string k l) (k :: l).
Proof.
  induction l as [|x l IH]; cbn; [reflexivity|]. destruct (String.leb k x); [reflexivity|].
  rewrite IH. apply perm_swap.
Qed.
Lemma sort_perm l : Permutation (sort_strings l) l.
Proof. induction l as [|k l IH]; cbn; [constructor|]. now rewrite insert_perm, IH. Qed.

Lemma insert_sorted k l : ~ In k l -> StronglySorted blt l -> StronglySorted blt (insert_string k l).
Proof.
  induction l as [|x l IH]; intros N S; cbn; [repeat constructor|].
  apply StronglySorted_inv in S as [S F]. unfold String.leb. pose proof (compare_blt k x) as C.
  destruct (String.compare k x).
  - subst. destruct N. now left.
  - constructor; [now constructor|]. constructor; [assumption|].
    eapply Forall_impl; [|exact F]. intros y. now apply blt_trans.
  - constructor; [apply IH; [|assumption]; intros I; apply N; now right|].
    rewrite Forall_forall in F |- *. intros y Iy. apply (Permutation_in y (insert_perm k l)) in Iy.
    destruct Iy as [<-|Iy]; [assumption|now apply F].
Qed.

Lemma sort_sorted l : NoDup l -> StronglySorted blt (sort_strings l).
Proof.
  induction 1 as [|k l N D IH]; cbn; [constructor|]. apply insert_sorted; [|assumption].
  intros I. apply N. eapply Permutation_in; [apply sort_perm|exact I].
Qed.

Theorem C20_keys : forall range s, fair range -> Built range s ->
  (forall k, In k (set_keys range s) <-> set_has s k = true) /\
  StronglySorted blt (set_keys range s) /\ NoDup (set_keys range s).
Proof.
  intros range s F B. apply built_nodup in B. unfold set_keys.
  assert (N : NoDup (range s)) by (eapply Permutation_NoDup; [apply Permutation_sym, F|assumption]).
  repeat split.
  - intros I. apply has_in. eapply Permutation_in; [apply F|]. eapply Permutation_in; [apply sort_perm|exact I].
  - intros I. apply has_in in I. eapply Permutation_in; [apply Permutation_sym, sort_perm|].
    eapply Permutation_in; [apply Permutation_sym, F|exact I].
  - now apply sort_sorted.
  - eapply Permutation_NoDup; [apply Permutation_sym, sort_perm|assumption].
Qed.

Lemma blt_irr a : ~ blt a a.
Proof. intros H. remember a as b eqn:E in H at 2. induction H; try discriminate; injection E; intros; subst; [lia|auto]. Qed.

Lemma sorted_unique l l' : StronglySorted blt l -> StronglySorted blt l' ->
  (forall k, In k l <-> In k l') -> l = l'.
Proof.
  intros S; revert l'; induction S as [|a l S IH F]; intros l' S' E.
  - destruct l' as [|b l']; [reflexivity|]. destruct (proj2 (E b)); now left.
  - destruct S' as [|b l' S' F']; [destruct (proj1 (E a)); now left|].
    rewrite Forall_forall in F, F'.
    assert (a = b).
    { destruct (proj1 (E a)) as [<-|I]; [now left|reflexivity|].
      destruct (proj2 (E b)) as [<-|J]; [now left|reflexivity|].
      exfalso. apply (blt_irr a). eapply blt_trans; [apply F, J|apply F', I]. }
    subst b. f_equal. apply IH; [assumption|]. intros k. split; intros I.
    + destruct (proj1 (E k)) as [<-|J]; [now right|exfalso; now apply (blt_irr a), F|assumption].
    + destruct (proj2 (E k)) as [<-|J]; [now right|exfalso; now apply (blt_irr a), F'|assumption].
Qed.

(** The result of Keys does not depend on the iteration order. *)
Theorem C20_keys_deterministic : forall r1 r2 s1 s2, fair r1 -> fair r2 -> Built r1 s1 -> Built r2 s2 ->
  (forall k, set_has s1 k = set_has s2 k) -> set_keys r1 s1 = set_keys r2 s2.
Proof.
  intros r1 r2 s1 s2 F1 F2 B1 B2 E.
  destruct (C20_keys r1 s1 F1 B1) as (I1 & S1 & _). destruct (C20_keys r2 s2 F2 B2) as (I2 & S2 & _).
  apply sorted_unique; auto. intros k. now rewrite I1, I2, E.
Qed.

(** IsSpaced: the binary operators, relations and arrows. *)
Theorem C20_is_spaced : forall range k, fair range ->
  (is_spaced range k = true <->
   In k BinaryOperators_list \/ In k RelationSymbols_list \/ In k ArrowSymbols_list).
Proof.
  intros range k F. unfold is_spaced, SpacedSymbols. rewrite C20_union_has by assumption.
  split.
  - intros (s & I & H). cbn [In] in I. destruct I as [<-|[<-|[<-|[]]]]; rewrite C20_new_set_has in H; auto.
  - intros [I|[I|I]]; (eexists; split; [|apply C20_new_set_has; exact I]); cbn [In]; auto.
Qed.

Example C20_ex :
  set_keys (@rev string) (union_of (@rev string) [new_set ["b"; "a"; "b"]; new_set ["c"; "a"]]) = ["a"; "b"; "c"] /\
  fair (@rev string) /\ is_spaced (fun s => s) "=" = true /\ is_spaced (fun s => s) "(" = false.
Proof.
  split; [reflexivity|]. split; [intros s; apply Permutation_sym, Permutation_rev|]. split; reflexivity.
Qed.

(** ** C21 *)

(** [v] starts with the UTF-8 encoding of the scalar value [r]. *)
Definition first_rune (v : string) (r : Z) : Prop :=
  valid_rune r = true /\ exists rest, v = append (encode_valid r) rest.

(** [w] is [v] with its first backslash, if any, removed. *)
Inductive unslashed : string -> string -> Prop :=
| un_nil : unslashed "" ""
| un_here q : unslashed (String "\" q) q
| un_later a v w : a <> "\"%char -> unslashed v w -> unslashed (String a v) (String a w).

Lemma unslashed_iff v w : unslashed v w <-> w = drop_backslash v.
Proof.
  split.
  - induction 1 as [|q|a v w N H IH]; cbn; [reflexivity|reflexivity|].
    destruct (Ascii.eqb_spec a "\"); [contradiction|]. congruence.
  - intros ->. induction v as [|a v IH]; cbn; [constructor|].
    destruct (Ascii.eqb_spec a "\"); [subst; constructor|now constructor].
Qed.

Lemma assoc_in {A} (l : list (string * A)) k v : assoc k l = Some v -> In (k, v) l.
Proof.
  induction l as [|[k' v'] l IH]; cbn; [discriminate|]. destruct (String.eqb_spec k k').
  - intros E. injection E as <-. subst. now left.
  - intros E. right. auto.
Qed.
Lemma in_assoc {A} (l : list (string * A)) k v : NoDup (map fst l) -> In (k, v) l -> assoc k l = Some v.
Proof.
  induction l as [|[k' v'] l IH]; cbn; [tauto|]. intros N [E|I].
  - injection E as -> ->. now rewrite String.eqb_refl.
  - apply NoDup_cons_iff in N as [N D]. destruct (String.eqb_spec k k'); [|auto]. subst.
    destruct N. apply in_map_iff. now exists (k', v).
Qed.

Fixpoint nodupb (l : list string) : bool :=
  match l with [] => true | x :: l' => negb (set_has l' x) && nodupb l' end.
Lemma nodupb_ok l : nodupb l = true -> NoDup l.
Proof.
  induction l as [|x l IH]; cbn; intros E; [constructor|]. apply andb_true_iff in E as [A B].
  constructor; [|auto]. rewrite <- has_in. now destruct (set_has l x).
Qed.

Lemma tex2uni_nodup : NoDup (map fst tex2uni).
Proof. apply nodupb_ok. vm_compute. reflexivity. Qed.

Lemma assoc_iff w r : assoc w tex2uni = Some r <-> In (w, r) tex2uni.
Proof. split; [apply assoc_in|apply in_assoc, tex2uni_nodup]. Qed.

Lemma zascii_eq a z : byte a = z -> zascii z = a.
Proof. intros <-. apply zascii_byte. Qed.

Ltac dm := repeat match goal with |- context [?x mod 64] =>
   let m := fresh "m" in let H := fresh in
   pose proof (Z.mod_pos_bound x 64 ltac:(lia)); pose proof (Z.div_mod x 64 ltac:(lia)); set (m := x mod 64) in * end.

Lemma decode_sound s r w : decode_rune s = (r, w) -> r <> RuneError -> first_rune s r.
Proof.
  unfold decode_rune, first_rune. intros E N. destruct s as [|a0 s1]; [injection E as <- _; congruence|].
  pose proof (byte_range a0) as R0.
  destruct (Z.ltb_spec (byte a0) 128) as [L|L].
  { injection E as <- _. split; [unfold valid_rune, in_range; lia|]. unfold encode_valid.
    replace (byte a0 <? 128) with true by lia. exists s1. cbn. now rewrite zascii_byte. }
  destruct (in_range 194 223 (byte a0)) eqn:R2.
  { destruct s1 as [|a1 s2]; [injection E as <- _; congruence|]. pose proof (byte_range a1).
    destruct (accept2 (byte a0) (byte a1)) eqn:Ac; injection E as <- _; [|congruence].
    assert (B1 : 128 <= byte a1 <= 191) by (unfold accept2, in_range in *; repeat destruct (_ =? _); lia).
    unfold in_range in R2. set (r := _ + _) in *. assert (128 <= r < 2048) by lia.
    split; [unfold valid_rune, in_range; lia|]. exists s2. unfold encode_valid.
    replace (r <? 128) with false by lia. replace (r <? 2048) with true by lia. cbn [append].
    rewrite (zascii_eq a0), (zascii_eq a1); [reflexivity| |]; subst r; Z.to_euclidean_division_equations; lia. }
  destruct (in_range 224 239 (byte a0)) eqn:R3.
  { destruct s1 as [|a1 [|a2 s3]]; try (injection E as <- _; congruence).
    pose proof (byte_range a1). pose proof (byte_range a2).
    destruct (accept2 (byte a0) (byte a1) && cont a2) eqn:Ac; injection E as <- _; [|congruence].
    apply andb_true_iff in Ac as [Ac C2]. unfold cont, in_range in *.
    assert (B1 : 128 <= byte a1 <= 191 /\ (byte a0 = 224 -> 160 <= byte a1) /\ (byte a0 = 237 -> byte a1 <= 159)).
    { unfold accept2, in_range in Ac.
      destruct (Z.eqb_spec (byte a0) 224), (Z.eqb_spec (byte a0) 237), (Z.eqb_spec (byte a0) 240), (Z.eqb_spec (byte a0) 244); lia. }
    set (r := _ + _) in *. assert (2048 <= r < 65536) by lia.
    split.
    { unfold valid_rune, in_range.
      destruct (Z_lt_dec r 55296); [lia|]. destruct (Z_lt_dec r 57344); [|lia]. exfalso.
      assert (byte a0 = 237) by lia. lia. }
    exists s3. unfold encode_valid.
    replace (r <? 128) with false by lia. replace (r <? 2048) with false by lia. replace (r <? 65536) with true by lia. cbn [append].
    rewrite (zascii_eq a0), (zascii_eq a1), (zascii_eq a2); [reflexivity| | |]; subst r; Z.to_euclidean_division_equations; lia. }
  destruct (in_range 240 244 (byte a0)) eqn:R4; [|injection E as <- _; congruence].
  destruct s1 as [|a1 [|a2 [|a3 s4]]]; try (injection E as <- _; congruence).
  pose proof (byte_range a1). pose proof (byte_range a2). pose proof (byte_range a3).
  destruct (accept2 (byte a0) (byte a1) && cont a2 && cont a3) eqn:Ac; injection E as <- _; [|congruence].
  apply andb_true_iff in Ac as [Ac C3]. apply andb_true_iff in Ac as [Ac C2]. unfold cont, in_range in *.
  assert (B1 : 128 <= byte a1 <= 191 /\ (byte a0 = 240 -> 144 <= byte a1) /\ (byte a0 = 244 -> byte a1 <= 143)).
  { unfold accept2, in_range in Ac.
    destruct (Z.eqb_spec (byte a0) 224), (Z.eqb_spec (byte a0) 237), (Z.eqb_spec (byte a0) 240), (Z.eqb_spec (byte a0) 244); lia. }
  set (r := _ + _) in *. assert (65536 <= r <= 1114111) by lia.
  split; [unfold valid_rune, in_range; lia|]. exists s4. unfold encode_valid.
  replace (r <? 128) with false by lia. replace (r <? 2048) with false by lia. replace (r <? 65536) with false by lia. cbn [append].
  rewrite (zascii_eq a0), (zascii_eq a1), (zascii_eq a2), (zascii_eq a3); [reflexivity| | | |]; subst r;
    Z.to_euclidean_division_equations; lia.
Qed.

Lemma first_rune_decode v r : first_rune v r -> fst (decode_rune v) = r.
Proof. intros (Va & rest & ->). now rewrite decode_encode_app. Qed.

(** Text mode: the first rune; panic iff the text is empty, does not start with
    a valid encoding, or starts with U+FFFD. *)
Theorem C21_text : forall v r,
  Symbols.index v false = Some r <-> first_rune v r /\ r <> RuneError.
Proof.
  intros v r. unfold Symbols.index. cbn [negb]. split.
  - destruct (decode_rune v) as [r' w] eqn:D. cbn. destruct (Z.eqb_spec r' RuneError); [discriminate|].
    intros E. injection E as <-. split; [eapply decode_sound; eauto|assumption].
  - intros (F & N). rewrite (first_rune_decode v r F). now destruct (Z.eqb_spec r RuneError).
Qed.

Theorem C21_text_panic : forall v,
  Symbols.index v false = None <-> forall r, first_rune v r -> r = RuneError.
Proof.
  intros v. split.
  - intros E r F. destruct (Z.eq_dec r RuneError); [assumption|].
    rewrite (proj2 (C21_text v r)) in E; [discriminate|auto].
  - intros H. destruct (Symbols.index v false) as [r|] eqn:E; [|reflexivity].
    apply C21_text in E as [F N]. now apply H in F.
Qed.

(** Math mode. *)
Theorem C21_math : forall v r,
  Symbols.index v true = Some r <->
  (v = "-" /\ r = 8722) \/
  (v <> "-" /\ exists a, v = String a "" /\ byte a < 128 /\ r = byte a) \/
  ((forall a, v = String a "" -> 128 <= byte a) /\ exists w, unslashed v w /\ In (w, r) tex2uni).
Proof.
  intros v r. unfold Symbols.index. cbn [negb].
  assert (L : (exists w, unslashed v w /\ In (w, r) tex2uni) <-> assoc (drop_backslash v) tex2uni = Some r).
  { rewrite assoc_iff. split; [intros (w & U & I); apply unslashed_iff in U; now subst|].
    intros I. exists (drop_backslash v). split; [now apply unslashed_iff|assumption]. }
  destruct (String.eqb_spec v "-") as [->|N].
  { split; [intros E; injection E as <-; left; auto|]. intros [[_ ->]|[[X _]|[H _]]]; [reflexivity|congruence|].
    specialize (H _ eq_refl). vm_compute in H. congruence. }
  rewrite L. destruct (Nat.eqb_spec (String.length v) 1) as [E1|E1].
  - destruct v as [|a [|b v]]; try discriminate E1. cbn [decode_rune].
    destruct (Z.ltb_spec (byte a) 128) as [A|A]; cbn [fst].
    + replace (negb (byte a =? RuneError)) with true by (unfold RuneError; lia). split.
      * intros E. injection E as <-. right. left. split; [assumption|]. eauto.
      * intros [[X _]|[(_ & b & E & _ & ->)|[H _]]]; [congruence|now injection E as ->|].
        specialize (H _ eq_refl). lia.
    + replace (fst _) with RuneError by (destruct (in_range 194 223 (byte a)), (in_range 224 239 (byte a)), (in_range 240 244 (byte a)); reflexivity).
      cbn [negb Z.eqb]. replace (negb (RuneError =? RuneError)) with false by reflexivity.
      split; [intros E; right; right|].
      * split; [|assumption]. intros b X. now injection X as <-.
      * intros [[X _]|[(_ & b & E & B & _)|[_ H]]]; [congruence| |assumption]. injection E as <-. lia.
  - split; [intros E; right; right|].
    + split; [|assumption]. intros b ->. now cbn in E1.
    + intros [[X _]|[(_ & b & -> & _)|[_ H]]]; [congruence|now cbn in E1|assumption].
Qed.

Theorem C21_has_symbol : forall v,
  (has_symbol v = true <-> In v symbols) /\ NoDup symbols.
Proof.
  intros v. split; [|apply tex2uni_nodup]. unfold has_symbol, symbols. split.
  - destruct (assoc v tex2uni) as [r|] eqn:E; [|discriminate]. intros _. apply assoc_in in E.
    apply in_map_iff. now exists (v, r).
  - intros I. apply in_map_iff in I as ([k r] & <- & I). apply assoc_iff in I. cbn [fst]. now rewrite I.
Qed.

(** Every symbol name, with or without its backslash, has an index in math mode
    except where a one-character name stands for itself. *)
Theorem C21_names_index : forall v, In v symbols -> Symbols.index (String "\" v) true <> None.
Proof.
  intros v I E. apply in_map_iff in I as ([k r] & <- & I). cbn [fst] in E.
  assert (X : Symbols.index (String "\" k) true = Some r); [|congruence].
  apply C21_math. right. right. split; [|exists k; split; [constructor|assumption]].
  intros a X. injection X as <- ->.
  apply assoc_iff in I. vm_compute in I. discriminate I.
Qed.

Example C21_ex :
  Symbols.index "\alpha" true = Some 945 /\ Symbols.index "alpha" true = Some 945 /\
  Symbols.index "x" true = Some 120 /\ Symbols.index "-" true = Some 8722 /\
  Symbols.index "\\alpha" true = None /\ Symbols.index "xy" true = None /\ Symbols.index "xy" false = Some 120 /\
  Symbols.index "" false = None /\ Symbols.index (encode_valid 233) false = Some 233 /\
  Symbols.index (encode_valid 233) true = None.
Proof. repeat split; vm_compute; reflexivity. Qed.

Print Assumptions C19_declared_names.
Print Assumptions C19_other_names.
Print Assumptions C19_total.
Print Assumptions C19_injective.
Print Assumptions C20_new_set_has.
Print Assumptions C20_union_has.
Print Assumptions C20_keys.
Print Assumptions C20_keys_deterministic.
Print Assumptions C20_is_spaced.
Print Assumptions C21_text.
Print Assumptions C21_text_panic.
Print Assumptions C21_math.
Print Assumptions C21_has_symbol.
Print Assumptions C21_names_index.
