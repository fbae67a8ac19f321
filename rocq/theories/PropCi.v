(** C93: the test runner of the continuous integration (ci/run-tests.go). *)
From Coq Require Import ZArith String Ascii List Bool Lia.
From Verif Require Import Utf8 Ci.
Import ListNotations.
Local Open Scope string_scope.
Local Open Scope list_scope.
Local Open Scope Z_scope.

(** ** Specification *)
(** A line as it is written: its text, and whether a carriage return follows. *)
Definition line : Type := string * bool.
Definition text_of (l : line) : string := (fst l ++ if snd l then String "013" "" else "")%string.
(** The output of go list: the lines [ls], each ended by a newline. *)
Definition printed (ls : list line) : string := String.concat "" (map (fun l => text_of l ++ String "010" "")%string ls).
(** A line that can be read back: no newline, no carriage return at the end of its
    text (unless another one follows), and not longer than a bufio.Scanner reads. *)
Fixpoint newlines (s : string) : nat := match s with "" => O | String c s' => (if Ascii.eqb c "010" then 1 else 0) + newlines s' end.
Definition plain_line (l : line) : Prop :=
  newlines (fst l) = O /\ (snd l = false -> forall x, fst l <> x ++ String "013" "")%string /\ zlen (text_of l) <= 65535.
Definition vendored (p : string) : Prop := exists a b, p = (a ++ "vendor" ++ b)%string.
(** The go commands run, and whether they succeeded. *)
Definition commands (evs : list event) : list (list string * bool) :=
  flat_map (fun e => match e with Ran a ok => [(a, ok)] | _ => [] end) evs.
(** What coverage.txt holds after these events (None: it was not created). *)
Definition coverage (evs : list event) : option string :=
  fold_left (fun f e => match e with
                        | Created => Some ""
                        | Appended d => option_map (fun x => x ++ d)%string f
                        | _ => f end) evs None.

(** ** The packages *)
Lemma sapp_nil x : (x ++ "")%string = x. Proof. induction x as [|c x IH]; [reflexivity|]. cbn. now rewrite IH. Qed.
Lemma sapp_assoc x y z : ((x ++ y) ++ z = x ++ (y ++ z))%string. Proof. induction x as [|c x IH]; [reflexivity|]. cbn. now rewrite IH. Qed.
Lemma concat_cons d ds : String.concat "" (d :: ds) = (d ++ String.concat "" ds)%string.
Proof. destruct ds as [|e ds]; [cbn; now rewrite sapp_nil|reflexivity]. Qed.
Lemma concat_app a b : String.concat "" (a ++ b) = (String.concat "" a ++ String.concat "" b)%string.
Proof. induction a as [|x a IH]; [reflexivity|]. rewrite <- app_comm_cons, !concat_cons, IH. now rewrite sapp_assoc. Qed.

Lemma drop_cr_plain l : (forall x, l <> x ++ String "013" "")%string -> drop_cr l = l.
Proof.
  induction l as [|c l IH]; [reflexivity|]. intros H. cbn [drop_cr]. destruct l as [|d l].
  - destruct (Ascii.eqb_spec c (ascii_of_nat 13)) as [->|]; [|reflexivity]. destruct (H ""). reflexivity.
  - f_equal. apply IH. intros x E. apply (H (String c x)). cbn. now rewrite E.
Qed.
Lemma drop_cr_cr l : drop_cr (l ++ String "013" "") = l.
Proof.
  induction l as [|c l IH]; [reflexivity|]. cbn [append drop_cr]. destruct (l ++ String "013" "")%string as [|d s] eqn:E.
  - destruct l; discriminate E.
  - now rewrite IH.
Qed.
Lemma drop_cr_text l : plain_line l -> drop_cr (text_of l) = fst l.
Proof.
  destruct l as [l [|]]; unfold text_of; cbn [fst snd]; intros (_ & C & _); [apply drop_cr_cr|]. rewrite sapp_nil. now apply drop_cr_plain, C.
Qed.
Lemma newlines_app a b : newlines (a ++ b) = (newlines a + newlines b)%nat.
Proof. induction a as [|c a IH]; [reflexivity|]. cbn [append newlines]. rewrite IH. lia. Qed.
Lemma text_newlines l : plain_line l -> newlines (text_of l) = O.
Proof. intros (N & _ & _). unfold text_of. rewrite newlines_app, N. now destruct (snd l). Qed.
Lemma scan_skip l s cur : newlines l = O -> scan_lines (l ++ s) cur = scan_lines s (cur ++ l)%string.
Proof.
  revert cur. induction l as [|c l IH]; intros cur N; [cbn; now rewrite sapp_nil|].
  cbn [newlines] in N. cbn [append scan_lines]. change newline with "010"%char.
  destruct (Ascii.eqb c "010"); [discriminate N|]. rewrite IH by exact N. f_equal. rewrite sapp_assoc. reflexivity.
Qed.
Lemma scan_line l s : plain_line l -> scan_lines (text_of l ++ String newline "" ++ s) "" = fst l :: scan_lines s "".
Proof.
  intros P. rewrite scan_skip by now apply text_newlines. cbn [append scan_lines]. change newline with "010"%char. rewrite Ascii.eqb_refl.
  replace (zlen (text_of l) <? max_token) with true by (symmetry; apply Z.ltb_lt; destruct P as (_ & _ & L); unfold max_token; lia). now rewrite drop_cr_text.
Qed.
Lemma scan_printed ls s : Forall plain_line ls -> scan_lines (printed ls ++ s) "" = map fst ls ++ scan_lines s "".
Proof.
  induction 1 as [|l ls P _ IH]; [reflexivity|].
  change (printed (l :: ls)) with (String.concat "" ((text_of l ++ String newline "")%string :: map (fun l => text_of l ++ String "010" "")%string ls)).
  rewrite concat_cons, !sapp_assoc. fold (printed ls). rewrite scan_line by exact P. now rewrite IH.
Qed.
Lemma prefix_app sub s : String.prefix sub s = true <-> exists b, s = (sub ++ b)%string.
Proof.
  revert s. induction sub as [|c sub IH]; intros s; [split; [intros _; exists s; reflexivity|destruct s; reflexivity]|].
  destruct s as [|d s]; cbn [String.prefix append]; [split; [discriminate|intros (b & E); discriminate E]|].
  destruct (ascii_dec c d) as [->|N].
  - rewrite IH. split; intros (b & E); exists b; [now rewrite E|injection E as E; exact E].
  - split; [discriminate|]. intros (b & E). injection E as E _. congruence.
Qed.
Lemma contains_spec s sub : contains s sub = true <-> exists a b, s = (a ++ sub ++ b)%string.
Proof.
  induction s as [|c s IH]; cbn [contains].
  - rewrite orb_false_r, prefix_app. split.
    + intros (b & E). exists "", b. exact E.
    + intros (a & b & E). exists b. destruct a; [exact E|discriminate E].
  - rewrite orb_true_iff, prefix_app, IH. split.
    + intros [(b & E)|(a & b & E)]; [exists "", b; exact E|exists (String c a), b; now rewrite E].
    + intros ([|d a] & b & E); [left; exists b; exact E|right; exists a, b; injection E as _ E; exact E].
Qed.
(** The packages tested are the lines that go list printed, in order, except the
    vendored ones; a carriage return at the end of a line does not belong to it, and the
    last line need not be ended. *)
Theorem C93_packages : forall ls, Forall plain_line ls ->
  exists keep, (forall p, keep p = true <-> ~ vendored p) /\ packages (printed ls) = filter keep (map fst ls) /\
    forall l, plain_line l -> text_of l <> "" -> packages (printed ls ++ text_of l) = filter keep (map fst (ls ++ [l])).
Proof.
  intros ls P. exists (fun pkg => negb (contains pkg "vendor")). split; [|split].
  - intros p. unfold vendored. rewrite <- contains_spec, negb_true_iff. now rewrite not_true_iff_false.
  - unfold packages. f_equal. rewrite <- (sapp_nil (printed ls)), scan_printed by exact P. apply app_nil_r.
  - intros l PL NE. unfold packages. f_equal. rewrite scan_printed by exact P. rewrite map_app. f_equal.
    rewrite <- (sapp_nil (text_of l)) at 1. rewrite scan_skip by now apply text_newlines. cbn [append scan_lines map].
    destruct (String.eqb_spec (text_of l) ""); [contradiction|].
    replace (zlen (text_of l) <? max_token) with true by (symmetry; apply Z.ltb_lt; destruct PL as (_ & _ & L); unfold max_token; lia).
    now rewrite drop_cr_text.
Qed.
Lemma scan_long s : forall cur, 65536 <= zlen cur -> scan_lines s cur = [].
Proof.
  induction s as [|c s IH]; intros cur L; cbn [scan_lines].
  - replace (zlen cur <? max_token) with false by (symmetry; apply Z.ltb_ge; exact L). now destruct (cur =? "")%string.
  - replace (zlen cur <? max_token) with false by (symmetry; apply Z.ltb_ge; exact L). destruct (Ascii.eqb c newline); [reflexivity|].
    apply IH. unfold zlen in *. assert (forall a b, String.length (a ++ b) = (String.length a + String.length b)%nat) as SL.
    { clear. induction a as [|x a IH]; intros b; [reflexivity|]. cbn. now rewrite IH. }
    rewrite SL. lia.
Qed.
(** A line of 64 KiB or more ends the list, and nothing reports it: the packages from
    there on are not tested, whatever they are. *)
Definition listing (out : string) (m : machine) : machine :=
  mk_machine (true, out) (test m) (create_ok m) (read_ok m) (short_write m) (remove_ok m) (close_ok m).
Theorem C93_long_line : forall o m prof ls l rest, Forall plain_line ls -> newlines l = O -> 65536 <= zlen l ->
  ci o (listing (printed ls ++ l ++ rest) m) prof = ci o (listing (printed ls) m) prof.
Proof.
  intros o m prof ls l rest P N L.
  unfold ci. cbn [listing list_cmd create_ok close_ok].
  assert (packages (printed ls ++ l ++ rest) = packages (printed ls)) as ->.
  { unfold packages. f_equal. rewrite <- (sapp_nil (printed ls)) at 2. rewrite !scan_printed by exact P. f_equal.
    rewrite scan_skip by exact N. now apply scan_long. }
  assert (forall a b pkgs n q, test_all o (listing a m) n pkgs q = test_all o (listing b m) n pkgs q) as T.
  { intros a b. induction pkgs as [|p pkgs IH]; intros n q; [reflexivity|]. cbn [test_all listing test read_ok short_write remove_ok].
    destruct (test m n (go_test o p) q) as [ok q']. destruct ok; [|reflexivity]. cbn [negb].
    destruct (negb (o_cover o =? "")%string); [|now rewrite IH]. destruct q' as [d|]; [|reflexivity].
    destruct (read_ok m n); [|reflexivity]. cbn [negb]. destruct (short_write m n d); [reflexivity|]. now rewrite IH. }
  now rewrite (T _ (printed ls)).
Qed.

(** ** The commands *)
(** go test gets the package as its last argument and, before it, what the flags ask for. *)
Ltac mem := repeat first [left; reflexivity|right].
Ltac or_ := first [left; reflexivity|right; left; reflexivity|right; right; assumption].
Theorem C93_arguments : forall o pkg, exists opts, go_test o pkg = "test" :: opts ++ [pkg] /\ NoDup opts /\
  (In "-race" opts <-> o_race o = true) /\
  (In "-timeout=20m" opts <-> o_race o = true) /\ (In "-timeout=10m" opts <-> o_race o = false) /\
  (In "-v" opts <-> o_race o = true \/ o_verbose o = true \/ o_cover o <> "") /\
  (In "-coverprofile=profile.out" opts <-> o_cover o <> "") /\ (In "-covermode=atomic" opts <-> o_cover o <> "") /\
  (forall x, In ("-coverpkg=" ++ x)%string opts <-> o_cover o <> "" /\ x = o_cover o) /\
  (forall x, In ("-tags=" ++ x)%string opts <-> o_tags o <> "" /\ x = o_tags o) /\
  forall x, In x opts -> In x ["-race"; "-timeout=20m"; "-timeout=10m"; "-v"; "-coverprofile=profile.out"; "-covermode=atomic";
                               "-coverpkg=" ++ o_cover o; "-tags=" ++ o_tags o]%string.
Proof.
  intros [race cover tags verbose] pkg. unfold go_test. cbn [o_race o_cover o_tags o_verbose].
  assert (C : forall x y, ("-coverpkg=" ++ x = "-coverpkg=" ++ y)%string -> x = y) by (intros x y E; now injection E).
  assert (T : forall x y, ("-tags=" ++ x = "-tags=" ++ y)%string -> x = y) by (intros x y E; now injection E).
  match goal with |- exists opts, (?a ++ ?b ++ ?c ++ ?d ++ ?e ++ ?f) = _ /\ _ => exists (b ++ c ++ d ++ e) end.
  rewrite <- !app_assoc. split; [reflexivity|].
  destruct (String.eqb_spec cover "") as [->|NC], (String.eqb_spec tags "") as [->|NT], race, verbose; cbn [negb orb app].
  all: split; [repeat (constructor; [cbn [In]; let H := fresh in intros H; repeat destruct H as [H|H]; try discriminate H; exact H|]); constructor|].
  all: cbn [In].
  all: repeat match goal with |- _ /\ _ => split end.
  all: try (intros x; split; [intros H; repeat destruct H as [H|H]; try discriminate H; try contradiction H; split; [assumption|]; (apply C in H || apply T in H); auto
                             |intros [H ->]; first [now destruct H|mem]]).
  all: try (split; [intros H; repeat destruct H as [H|H]; try discriminate H; try contradiction H; first [reflexivity|assumption|or_]
                   |intros H; repeat destruct H as [H|H]; first [discriminate H|now destruct H|mem]]).
  all: intros y H; repeat destruct H as [<-|H]; first [contradiction H|mem].
Qed.

(** ** The run *)
Section Run.
Variable o : options.
Variable m : machine.
Variable prof : option string.        (* profile.out at the start *)
Definition covers : Prop := o_cover o <> "".
(** What profile.out can hold when the n-th test command starts: nothing, if the
    profile of the command before was removed. *)
Definition before_test (n : nat) (before : option string) : Prop :=
  match n with O => before = prof | S k => covers -> remove_ok m k = true -> before = None end.
(** The n-th test command, for package p, succeeded, and left d in profile.out. *)
Definition passes (n : nat) (p d : string) : Prop :=
  exists before after, before_test n before /\ test m n (go_test o p) before = (true, after) /\ (covers -> after = Some d).
(** What is done for a package that passes. *)
Definition done (pd : string * string) : list event :=
  Ran (go_test o (fst pd)) true :: if (o_cover o =? "")%string then [] else [Appended (snd pd); Removed].
(** How the n-th package can end the run, and what is done for it then. *)
Inductive ends (n : nat) (p : string) : list event -> Prop :=
  | ends_test before after : test m n (go_test o p) before = (false, after) -> ends n p [Ran (go_test o p) false]
  | ends_missing before : covers -> test m n (go_test o p) before = (true, None) -> ends n p [Ran (go_test o p) true]
  | ends_unread before d : covers -> test m n (go_test o p) before = (true, Some d) -> read_ok m n = false -> ends n p [Ran (go_test o p) true]
  | ends_short before d k : covers -> test m n (go_test o p) before = (true, Some d) -> short_write m n d = Some k ->
      ends n p [Ran (go_test o p) true; Appended (String.substring 0 k d)].

Lemma test_all_spec pkgs : forall n prof evs r, before_test n prof -> test_all o m n pkgs prof = (evs, r) ->
  exists pds rest last, pkgs = map fst pds ++ rest /\ evs = flat_map done pds ++ last /\
    (forall i p d, nth_error pds i = Some (p, d) -> passes (n + i) p d) /\
    match rest with
    | [] => r = true /\ last = []
    | p :: _ => r = false /\ ends (n + length pds) p last
    end.
Proof.
  induction pkgs as [|p pkgs IH]; intros n prof' evs r B; cbn [test_all].
  - intros [= <- <-]. exists [], [], []. repeat split; auto. intros [|i] q d E; discriminate E.
  - destruct (test m n (go_test o p) prof') as [ok after] eqn:T. destruct ok; cbn [negb].
    2: { intros [= <- <-]. exists [], (p :: pkgs), [Ran (go_test o p) false]. repeat split.
         - intros [|i] q d E; discriminate E.
         - rewrite Nat.add_0_r. now apply ends_test with (1 := T). }
    destruct (String.eqb_spec (o_cover o) "") as [Z|Z]; cbn [negb].
    + destruct (test_all o m (S n) pkgs after) as [evs' r'] eqn:TA. intros [= <- <-].
      apply IH in TA as (pds & rest & last & -> & -> & P & E); [|intros C; now destruct C]. exists ((p, "") :: pds), rest, last. cbn [map fst flat_map app length].
      split; [reflexivity|]. split; [replace (done (p, "")) with [Ran (go_test o p) true]; [reflexivity|unfold done; now rewrite Z]|]. split.
      * intros [|i] q d N; cbn [nth_error] in N.
        -- injection N as <- <-. rewrite Nat.add_0_r. exists prof', after. split; [exact B|]. split; [exact T|]. intros C. now destruct C.
        -- rewrite Nat.add_succ_r. now apply P.
      * rewrite Nat.add_succ_r. exact E.
    + destruct after as [d|].
      2: { intros [= <- <-]. exists [], (p :: pkgs), [Ran (go_test o p) true]. repeat split.
           - intros [|i] q d E; discriminate E.
           - rewrite Nat.add_0_r. now apply ends_missing with (2 := T). }
      destruct (read_ok m n) eqn:RO; cbn [negb].
      2: { intros [= <- <-]. exists [], (p :: pkgs), [Ran (go_test o p) true]. repeat split.
           - intros [|i] q e E; discriminate E.
           - rewrite Nat.add_0_r. now apply ends_unread with (2 := T). }
      destruct (short_write m n d) as [k|] eqn:SW.
      { intros [= <- <-]. exists [], (p :: pkgs), [Ran (go_test o p) true; Appended (String.substring 0 k d)]. repeat split.
        - intros [|i] q e E; discriminate E.
        - rewrite Nat.add_0_r. now apply ends_short with (2 := T). }
      destruct (test_all o m (S n) pkgs (if remove_ok m n then None else Some d)) as [evs' r'] eqn:TA. intros [= <- <-].
      apply IH in TA as (pds & rest & last & -> & -> & P & E); [|intros C RM; now rewrite RM]. exists ((p, d) :: pds), rest, last. cbn [map fst flat_map app length].
      split; [reflexivity|]. split.
      { replace (done (p, d)) with [Ran (go_test o p) true; Appended d; Removed]; [reflexivity|]. unfold done. cbn [fst snd].
        destruct (String.eqb_spec (o_cover o) ""); [contradiction|]. reflexivity. }
      split.
      * intros [|i] q e N; cbn [nth_error] in N.
        -- injection N as <- <-. rewrite Nat.add_0_r. exists prof', (Some d). split; [exact B|]. split; [exact T|]. reflexivity.
        -- rewrite Nat.add_succ_r. now apply P.
      * rewrite Nat.add_succ_r. exact E.
Qed.

Lemma commands_app a b : commands (a ++ b) = commands a ++ commands b.
Proof. unfold commands. apply flat_map_app. Qed.
Lemma commands_done pds : commands (flat_map done pds) = map (fun p => (go_test o p, true)) (map fst pds).
Proof.
  induction pds as [|[p d] pds IH]; [reflexivity|]. cbn [flat_map map fst]. rewrite commands_app, IH. unfold done. cbn [fst snd].
  destruct (o_cover o =? "")%string; reflexivity.
Qed.
Definition listed (ok : bool) : list string * bool := (["list"; "./..."], ok).

(** Status 0 means that go list succeeded and that go test was run for every package
    it listed, once, in order, and succeeded each time. *)
Theorem C93_success : forall evs, ci o m prof = (evs, 0) ->
  exists out, list_cmd m = (true, out) /\
    commands evs = listed true :: map (fun p => (go_test o p, true)) (packages out).
Proof.
  intros evs. unfold ci. destruct (list_cmd m) as [ok out]. destruct ok; cbn [negb]; [|discriminate].
  destruct (create_ok m); cbn [negb]; [|discriminate]. destruct (test_all o m 0 (packages out) prof) as [evs' r] eqn:TA.
  intros E. exists out. split; [reflexivity|]. destruct r; cbn [andb] in E; [|discriminate E].
  apply test_all_spec in TA; [|reflexivity]. destruct TA as (pds & rest & last & -> & -> & _ & R). destruct rest as [|q rest]; [|destruct R; discriminate].
  destruct R as [_ ->]. assert (evs = Ran ["list"; "./..."] true :: Created :: flat_map done pds ++ []) as -> by (inversion E; reflexivity).
  rewrite !app_nil_r. unfold commands. cbn [flat_map app]. fold (commands (flat_map done pds)). now rewrite commands_done.
Qed.

(** Any other status is 1, and comes from a failure: of go list, of a test, of
    creating or closing coverage.txt, or of moving a profile into it.  No package is
    tested after one that fails. *)
Theorem C93_failure : forall evs st, ci o m prof = (evs, st) -> st <> 0 -> st = 1 /\
  (fst (list_cmd m) = false /\ commands evs = [listed false] \/
   fst (list_cmd m) = true /\ create_ok m = false /\ commands evs = [listed true] \/
   fst (list_cmd m) = true /\ create_ok m = true /\
   exists passed rest, packages (snd (list_cmd m)) = passed ++ rest /\
     (forall i p, nth_error passed i = Some p -> exists d, passes i p d) /\
     match rest with
     | [] => close_ok m = false /\ commands evs = listed true :: map (fun p => (go_test o p, true)) passed
     | p :: _ => exists last, ends (length passed) p last /\
                  commands evs = listed true :: map (fun p => (go_test o p, true)) passed ++ commands last
     end).
Proof.
  intros evs st. unfold ci. destruct (list_cmd m) as [ok out]. destruct ok; cbn [negb fst snd].
  2: { intros [= <- <-] _. split; [reflexivity|]. left. auto. }
  destruct (create_ok m); cbn [negb].
  2: { intros [= <- <-] _. split; [reflexivity|]. right. left. auto. }
  destruct (test_all o m 0 (packages out) prof) as [evs' r] eqn:TA. intros E NZ.
  assert (evs = Ran ["list"; "./..."] true :: Created :: evs' /\ st = if r && close_ok m then 0 else 1) as [-> ->] by (inversion E; auto). clear E.
  destruct (r && close_ok m) eqn:RC; [congruence|]. split; [reflexivity|]. right. right. split; [reflexivity|]. split; [reflexivity|].
  apply test_all_spec in TA; [|reflexivity]. destruct TA as (pds & rest & last & -> & -> & P & R). exists (map fst pds), rest. split; [reflexivity|]. split.
  { intros i p N. rewrite nth_error_map in N. destruct (nth_error pds i) as [[q d]|] eqn:N'; [|discriminate N]. injection N as <-. exists d. now apply (P i). }
  destruct rest as [|q rest].
  - destruct R as [-> ->]. split; [exact RC|]. rewrite app_nil_r. unfold commands. cbn [flat_map app]. fold (commands (flat_map done pds)). now rewrite commands_done.
  - destruct R as [_ R]. exists last. rewrite map_length. split; [exact R|]. unfold commands at 1. cbn [flat_map app]. fold (commands (flat_map done pds ++ last)).
    rewrite commands_app, commands_done. reflexivity.
Qed.
(** If nothing fails, the status is 0. *)
Theorem C93_passes : forall out, list_cmd m = (true, out) -> create_ok m = true -> close_ok m = true ->
  (forall n p before, In p (packages out) -> exists after, test m n (go_test o p) before = (true, after) /\
     (covers -> read_ok m n = true /\ exists d, after = Some d /\ short_write m n d = None)) ->
  snd (ci o m prof) = 0.
Proof.
  intros out L C K T. destruct (ci o m prof) as [evs st] eqn:E. cbn [snd]. destruct (Z.eq_dec st 0) as [|N]; [assumption|].
  apply C93_failure in E as [_ [[F _]|[(_ & F & _)|(_ & _ & passed & rest & P & _ & R)]]]; [..|assumption].
  1: rewrite L in F; discriminate F. 1: congruence. rewrite L in P. cbn [snd] in P.
  destruct rest as [|p rest]; [destruct R; congruence|]. destruct R as (last & R & _).
  assert (I : In p (packages out)) by (rewrite P; apply in_or_app; right; left; reflexivity).
  destruct R as [before after H|before CV H|before d CV H U|before d k CV H U]; destruct (T (length passed) p before I) as (after' & H' & Q); rewrite H in H'.
  - discriminate H'.
  - injection H' as <-. destruct (Q CV) as (_ & d & Z & _). discriminate Z.
  - destruct (Q CV) as (Z & _). congruence.
  - injection H' as <-. destruct (Q CV) as (_ & e & Z & W). injection Z as <-. congruence.
Qed.

(** ** coverage.txt *)
Definition step (f : option string) (e : event) : option string :=
  match e with Created => Some "" | Appended d => option_map (fun x => x ++ d)%string f | _ => f end.
Definition written (pds : list (string * string)) : string := if (o_cover o =? "")%string then "" else String.concat "" (map snd pds).
Lemma written_cons p d pds : written ((p, d) :: pds) = ((if (o_cover o =? "")%string then "" else d) ++ written pds)%string.
Proof. unfold written. destruct (o_cover o =? "")%string; [reflexivity|]. cbn [map snd]. apply concat_cons. Qed.
Lemma done_prefix pds last : forall pre post f, flat_map done pds ++ last = pre ++ post ->
  (exists pds1 pds2, pds = pds1 ++ pds2 /\ fold_left step pre (Some f) = Some (f ++ written pds1)%string) \/
  (exists pre', last = pre' ++ post /\ pre = flat_map done pds ++ pre' /\ fold_left step pre (Some f) = fold_left step pre' (Some (f ++ written pds)%string)).
Proof.
  assert (W0 : forall f, (f ++ written [] = f)%string).
  { intros f. unfold written. destruct (o_cover o =? "")%string; apply sapp_nil. }
  induction pds as [|[p d] pds IH]; intros pre post f E.
  - right. exists pre. cbn [flat_map app] in *. rewrite W0. auto.
  - destruct pre as [|e pre].
    { left. exists [], ((p, d) :: pds). rewrite W0. auto. }
    cbn [flat_map] in E. unfold done at 1 in E. cbn [fst snd] in E.
    destruct (o_cover o =? "")%string eqn:Z.
    + cbn [app] in E. assert (e = Ran (go_test o p) true /\ flat_map done pds ++ last = pre ++ post) as [-> E'] by (split; inversion E; reflexivity). clear E.
      cbn [fold_left step]. apply (IH pre post f) in E' as [(p1 & p2 & -> & F)|(pre' & L & -> & F)].
      * left. exists ((p, d) :: p1), p2. split; [reflexivity|]. rewrite written_cons, Z. exact F.
      * right. exists pre'. split; [exact L|]. split; [cbn [flat_map]; unfold done at 2; cbn [fst snd]; now rewrite Z|]. rewrite written_cons, Z. exact F.
    + cbn [app] in E. assert (e = Ran (go_test o p) true /\ Appended d :: Removed :: flat_map done pds ++ last = pre ++ post) as [-> E'] by (split; inversion E; reflexivity). clear E.
      cbn [fold_left step]. destruct pre as [|e pre].
      { left. exists [], ((p, d) :: pds). rewrite W0. auto. }
      assert (e = Appended d /\ Removed :: flat_map done pds ++ last = pre ++ post) as [-> E] by (split; inversion E'; reflexivity). clear E'.
      assert (W1 : forall q, written ((p, d) :: q) = (d ++ written q)%string) by (intros q; now rewrite written_cons, Z).
      cbn [fold_left step option_map]. destruct pre as [|e pre].
      { left. exists [(p, d)], pds. split; [reflexivity|]. rewrite W1, <- sapp_assoc. now rewrite W0. }
      assert (e = Removed /\ flat_map done pds ++ last = pre ++ post) as [-> E'] by (split; inversion E; reflexivity). clear E.
      cbn [fold_left step]. apply (IH pre post (f ++ d)%string) in E' as [(p1 & p2 & -> & F)|(pre' & L & -> & F)].
      * left. exists ((p, d) :: p1), p2. split; [reflexivity|]. rewrite W1, <- sapp_assoc. exact F.
      * right. exists pre'. split; [exact L|]. split; [cbn [flat_map]; unfold done at 2; cbn [fst snd]; now rewrite Z|]. rewrite W1, <- sapp_assoc. exact F.
Qed.
(** At every moment of the run, in particular when it is killed, coverage.txt holds the
    profiles of the packages tested so far, whole and in order (or it has not been
    created yet); except that a failing write may leave the beginning of one more. *)
Theorem C93_coverage : forall evs st pre post, ci o m prof = (evs, st) -> evs = pre ++ post ->
  coverage pre = None \/
  exists pds rest, packages (snd (list_cmd m)) = map fst pds ++ rest /\
    (forall i p d, nth_error pds i = Some (p, d) -> passes i p d) /\
    ((covers -> coverage pre = Some (String.concat "" (map snd pds))) /\ (~ covers -> coverage pre = Some "") \/
     exists d k, post = [] /\ st = 1 /\ covers /\ short_write m (length pds) d = Some k /\
       coverage pre = Some (String.concat "" (map snd pds) ++ String.substring 0 k d)%string).
Proof.
  intros evs st pre post E P. unfold coverage. change (fun f e => _) with step. unfold ci in E. destruct (list_cmd m) as [ok out].
  assert (N0 : forall e pre post', (exists a b, e = Ran a b) -> [e] = pre ++ post' -> fold_left step pre None = None).
  { intros e q q' (a & b & ->) H. destruct q as [|x q]; [reflexivity|]. injection H as <- H. symmetry in H. apply app_eq_nil in H as [-> _]. reflexivity. }
  destruct ok; cbn [negb] in E.
  2: { left. assert (evs = [Ran ["list"; "./..."] false]) as H by (inversion E; reflexivity). rewrite H in P. now apply (N0 _ _ _ (ex_intro _ _ (ex_intro _ _ eq_refl)) P). }
  destruct (create_ok m); cbn [negb] in E.
  2: { left. assert (evs = [Ran ["list"; "./..."] true]) as H by (inversion E; reflexivity). rewrite H in P. now apply (N0 _ _ _ (ex_intro _ _ (ex_intro _ _ eq_refl)) P). }
  destruct (test_all o m 0 (packages out) prof) as [evs' r] eqn:TA. cbn [snd].
  assert (evs = Ran ["list"; "./..."] true :: Created :: evs' /\ st = if r && close_ok m then 0 else 1) as [-> ->] by (inversion E; auto). clear E.
  destruct pre as [|e pre]; [left; reflexivity|]. assert (e = Ran ["list"; "./..."] true /\ Created :: evs' = pre ++ post) as [-> P'] by (inversion P; auto). clear P.
  destruct pre as [|e pre]; [left; reflexivity|]. assert (e = Created /\ evs' = pre ++ post) as [-> P] by (inversion P'; auto). clear P'.
  right. cbn [fold_left step]. apply test_all_spec in TA; [|reflexivity]. destruct TA as (pds & rest & last & PK & -> & PS & R). rewrite PK.
  assert (W : forall q x, x = Some ("" ++ written q)%string -> (covers -> x = Some (String.concat "" (map snd q))) /\ (~ covers -> x = Some "")).
  { intros q x ->. unfold written, covers. destruct (String.eqb_spec (o_cover o) "") as [Z|Z]; split; intros C; try reflexivity; contradiction. }
  apply (done_prefix _ _ pre post "") in P as [(p1 & p2 & -> & F)|(pre' & -> & -> & F)].
  - exists p1, (map fst p2 ++ rest). split; [now rewrite map_app, app_assoc|]. split; [|left; now apply W].
    intros i p d N. apply PS. rewrite nth_error_app1; [exact N|]. apply nth_error_Some. now rewrite N.
  - exists pds, rest. split; [reflexivity|]. split; [exact PS|]. destruct rest as [|p rest].
    + destruct R as [_ R]. apply app_eq_nil in R as [-> ->]. left. apply W. exact F.
    + destruct R as [-> R]. cbn [andb]. rewrite F. clear F.
      assert (NR : forall a b q, [Ran a b] = q ++ post -> fold_left step q (Some ("" ++ written pds)%string) = Some ("" ++ written pds)%string).
      { intros a b q H. destruct q as [|x q]; [reflexivity|]. injection H as <- H. symmetry in H. apply app_eq_nil in H as [-> _]. reflexivity. }
      remember (pre' ++ post) as l eqn:EL. destruct R as [before after H|before CV H|before d CV H U|before d k CV H U].
      1-3: left; apply W; now apply (NR _ _ _ EL).
      destruct pre' as [|e pre']; [left; apply W; reflexivity|]. injection EL as <- EL.
      destruct pre' as [|e pre']; [left; apply W; reflexivity|]. injection EL as <- EL. symmetry in EL. apply app_eq_nil in EL as [-> ->].
      right. exists d, k. split; [reflexivity|]. split; [reflexivity|]. split; [exact CV|]. split; [exact U|].
      cbn [fold_left step option_map]. unfold written. destruct (String.eqb_spec (o_cover o) ""); [contradiction|]. reflexivity.
Qed.
(** After a run with status 0 it holds the profiles of all packages. *)
Theorem C93_complete : forall evs, ci o m prof = (evs, 0) ->
  exists pds, map fst pds = packages (snd (list_cmd m)) /\ (forall i p d, nth_error pds i = Some (p, d) -> passes i p d) /\
    (covers -> coverage evs = Some (String.concat "" (map snd pds))) /\ (~ covers -> coverage evs = Some "").
Proof.
  intros evs E. unfold ci in E. destruct (list_cmd m) as [ok out]. destruct ok; cbn [negb] in E; [|discriminate E].
  destruct (create_ok m); cbn [negb] in E; [|discriminate E]. destruct (test_all o m 0 (packages out) prof) as [evs' r] eqn:TA.
  assert (evs = Ran ["list"; "./..."] true :: Created :: evs' /\ 0 = if r && close_ok m then 0 else 1) as [-> RC] by (injection E as E1 E2; split; [symmetry; exact E1|symmetry; exact E2]). clear E.
  destruct r; [|discriminate RC]. apply test_all_spec in TA; [|reflexivity]. destruct TA as (pds & rest & last & PK & -> & PS & R).
  destruct rest as [|p rest]; [|destruct R; discriminate]. destruct R as [_ ->]. rewrite app_nil_r in PK. exists pds. split; [symmetry; exact PK|]. split; [exact PS|].
  unfold coverage. change (fun f e => _) with step. cbn [fold_left step]. rewrite app_nil_r.
  assert (G : forall q f, fold_left step (flat_map done q) (Some f) = Some (f ++ written q)%string).
  { clear. induction q as [|[a b] q IH]; intros f.
    - unfold written. cbn [flat_map fold_left map String.concat]. destruct (o_cover o =? "")%string; now rewrite sapp_nil.
    - cbn [flat_map]. rewrite fold_left_app. unfold done at 2. cbn [fst snd]. rewrite written_cons.
      destruct (o_cover o =? "")%string; cbn [fold_left step option_map]; rewrite IH; [reflexivity|now rewrite sapp_assoc]. }
  rewrite G. unfold written, covers. destruct (String.eqb_spec (o_cover o) "") as [Z|Z]; split; intros C; try contradiction; reflexivity.
Qed.
End Run.

(** ** A case *)
(** Two packages and a vendored one; the tests write their profiles; then the second
    test fails. *)
Example ci_machine (second : bool) : machine :=
  mk_machine (true, printed [("a/x", false); ("a/vendor/y", true); ("a/z", false)])
    (fun n _ _ => match n with O => (true, Some "P0;") | _ => (second, Some "P1;") end) true (fun _ => true) (fun _ _ => None) (fun _ => true) true.
Example ci_options : options := mk_options true "./..." "" false.
Example ci_pass : ci ci_options (ci_machine true) None =
  ([Ran ["list"; "./..."] true; Created;
    Ran ["test"; "-v"; "-coverprofile=profile.out"; "-covermode=atomic"; "-coverpkg=./..."; "-race"; "-timeout=20m"; "a/x"] true; Appended "P0;"; Removed;
    Ran ["test"; "-v"; "-coverprofile=profile.out"; "-covermode=atomic"; "-coverpkg=./..."; "-race"; "-timeout=20m"; "a/z"] true; Appended "P1;"; Removed], 0).
Proof. reflexivity. Qed.
Example ci_fail : snd (ci ci_options (ci_machine false) None) = 1 /\ coverage (fst (ci ci_options (ci_machine false) None)) = Some "P0;".
Proof. split; reflexivity. Qed.
Example ci_lines : Forall plain_line [("a/x", false); ("a/vendor/y", true); ("a/z", false)].
Proof.
  repeat (apply Forall_cons || apply Forall_nil); (split; [reflexivity|]; split; [|vm_compute; discriminate]); cbn [fst snd]; intros B; try discriminate B.
  all: intros x E; repeat (destruct x as [|? x]; [discriminate E|injection E as _ E]); destruct x; discriminate E.
Qed.
