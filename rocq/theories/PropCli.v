(** C67, C68: the command mtex-render. *)
From Coq Require Import ZArith String Ascii List Bool Lia QArith Qcanon.
From Verif Require Import Symbols PropSymbols Arith Exact Box Ship Parser Mtex MtexFacts PropMtex Ttf TtfFacts PropTtf Render RenderFacts PropRender PropImage ShipFacts ShipFacts2 PropShip Cli.
Import ListNotations.
Local Open Scope string_scope.
Local Open Scope list_scope.
Local Open Scope Z_scope.

(** ** What a command line means *)
(** One setting on the command line, with one or two dashes: "-name=value",
    "-name value" or "-gui". *)
Inductive setting : Type :=
  | Joined (two : bool) (name value : string)
  | Apart (two : bool) (name value : string)
  | Switch (two : bool).
Definition dash (two : bool) : string := if two then "--" else "-".
Definition text (s : setting) : list string :=
  match s with
  | Joined t n v => [dash t ++ n ++ "=" ++ v]%string
  | Apart t n v => [dash t ++ n; v]%string
  | Switch t => [dash t ++ "gui"]%string
  end.
Definition sets (s : setting) : string * string :=
  match s with Joined _ n v | Apart _ n v => (n, v) | Switch _ => ("gui", "true") end.
(** The last value given to a flag. *)
Definition latest (name : string) (l : list setting) : option string :=
  option_map snd (List.find (fun x => String.eqb name (fst x)) (rev (map sets l))).

(** The spellings of the truth values. *)
Definition boolean (s : string) : option bool :=
  match s with
  | "1" | "t" | "T" | "true" | "TRUE" | "True" => Some true
  | "0" | "f" | "F" | "false" | "FALSE" | "False" => Some false
  | _ => None
  end.
Lemma parse_bool_eq s : parse_bool s = boolean s.
Proof.
  unfold parse_bool. cbn [existsb]. rewrite !orb_false_r.
  repeat match goal with
  | |- context [String.eqb s ?k] => destruct (String.eqb_spec s k) as [->|]; [reflexivity|]
  end.
  cbn [orb]. unfold boolean.
  repeat (match goal with |- context [match ?x with _ => _ end] => is_var x; destruct x end; try reflexivity; try congruence).
Qed.

Section Flags.
Context {A : arith}.
Variable parse_float : string -> option (Arith.F A).
Notation config := (@config A).
Definition valid (s : setting) : Prop :=
  let '(n, v) := sets s in
  match s with Apart _ _ _ => n <> "gui" | _ => True end /\
  (((n = "dpi" \/ n = "font-size") /\ parse_float v <> None) \/ n = "o" \/ (n = "gui" /\ boolean v <> None)).
Definition given {X} (read : string -> option X) (o : option string) (default value : X) : Prop :=
  match o with Some v => read v = Some value | None => value = default end.
Definition configured (l : list setting) (c : config) : Prop :=
  given parse_float (latest "dpi" l) (fofZ A 72) (g_dpi c) /\
  given parse_float (latest "font-size" l) (fofZ A 12) (g_size c) /\
  given Some (latest "o" l) "out.png" (g_out c) /\
  given boolean (latest "gui" l) false (g_gui c).
(** A word of two or more bytes that begins with a dash. *)
Definition looks_like_flag (s : string) : Prop := exists x s', s = String "-" (String x s').
(** The settings, then the other arguments; "--" may separate them and must do so if
    the first of the others looks like a flag. *)
Definition command_line (args : list string) (l : list setting) (rest : list string) : Prop :=
  Forall valid l /\
  (args = flat_map text l ++ "--" :: rest \/
   args = flat_map text l ++ rest /\ match rest with s :: _ => ~ looks_like_flag s | [] => True end).

Definition with_ (c : config) (l : list setting) (c' : config) : Prop :=
  given parse_float (latest "dpi" l) (g_dpi c) (g_dpi c') /\
  given parse_float (latest "font-size" l) (g_size c) (g_size c') /\
  given Some (latest "o" l) (g_out c) (g_out c') /\
  given boolean (latest "gui" l) (g_gui c) (g_gui c').

Lemma cut_eq_at n v : (forall c, In c (list_ascii_of_string n) -> Ascii.eqb c "=" = false) -> cut_eq (n ++ "=" ++ v) = (n, Some v).
Proof.
  induction n as [|c n IH]; intros H; cbn; [reflexivity|]. rewrite (H c (or_introl eq_refl)).
  cbn in IH. rewrite IH; [reflexivity|]. intros x I. apply H. now right.
Qed.
Lemma cut_eq_inv s a b : cut_eq s = (a, b) -> s = match b with Some v => (a ++ "=" ++ v)%string | None => a end.
Proof.
  revert a b. induction s as [|c s IH]; intros a b H; cbn in H; [injection H as <- <-; reflexivity|].
  destruct (Ascii.eqb c "=") eqn:E.
  - apply Ascii.eqb_eq in E. subst c. injection H as <- <-. reflexivity.
  - destruct (cut_eq s) as [a' b']. injection H as <- <-. rewrite (IH a' b' eq_refl). destruct b'; reflexivity.
Qed.

Lemma latest_cons n s l : latest n (s :: l) =
  match latest n l with Some v => Some v | None => if String.eqb n (fst (sets s)) then Some (snd (sets s)) else None end.
Proof.
  unfold latest. cbn [map rev]. induction (rev (map sets l)) as [|x r IH]; cbn [app List.find option_map].
  - destruct (String.eqb n (fst (sets s))); reflexivity.
  - destruct (String.eqb n (fst x)); [reflexivity|exact IH].
Qed.

(** What setting one flag does. *)
Lemma set_flag_with s c : valid s -> exists c', set_flag parse_float (fst (sets s)) (snd (sets s)) c = Some c' /\
  forall l c'', with_ c' l c'' -> with_ c (s :: l) c''.
Proof.
  intros V. unfold valid in V. destruct (sets s) as [n v] eqn:E. cbn [fst snd]. destruct V as [_ V].
  assert (W : forall l, forall m, latest m (s :: l) = match latest m l with Some x => Some x | None => if String.eqb m n then Some v else None end).
  { intros l m. rewrite latest_cons, E. reflexivity. }
  assert (G : forall l m X (read : string -> option X) d x, m <> n -> given read (latest m l) d x -> given read (latest m (s :: l)) d x).
  { intros l m X read d x N G. rewrite W. destruct (String.eqb m n) eqn:Q; [apply String.eqb_eq in Q; contradiction|].
    destruct (latest m l); exact G. }
  assert (G1 : forall l X (read : string -> option X) d x0 x, read v = Some x0 -> given read (latest n l) x0 x -> given read (latest n (s :: l)) d x).
  { intros l X read d x0 x R G1. rewrite W, String.eqb_refl. destruct (latest n l); [exact G1|]. cbn in *. congruence. }
  unfold set_flag. rewrite parse_bool_eq. destruct V as [[[->| ->] V]|[->|[-> V]]].
  - destruct (parse_float v) as [x|] eqn:P; [|contradiction]. eexists. split; [reflexivity|].
    intros l c'' (H1 & H2 & H3 & H4). cbn [g_dpi g_size g_out g_gui] in *.
    split; [eapply G1; eassumption|]. split; [apply G; [discriminate|exact H2]|]. split; apply G; (discriminate || assumption).
  - destruct (parse_float v) as [x|] eqn:P; [|contradiction]. eexists. split; [reflexivity|].
    intros l c'' (H1 & H2 & H3 & H4). cbn [g_dpi g_size g_out g_gui] in *.
    split; [apply G; [discriminate|exact H1]|]. split; [eapply G1; eassumption|]. split; apply G; (discriminate || assumption).
  - eexists. split; [reflexivity|].
    intros l c'' (H1 & H2 & H3 & H4). cbn [g_dpi g_size g_out g_gui] in *.
    split; [apply G; [discriminate|exact H1]|]. split; [apply G; [discriminate|exact H2]|]. split; [eapply G1; [reflexivity|exact H3]|].
    apply G; [discriminate|exact H4].
  - destruct (boolean v) as [x|] eqn:P; [|contradiction]. eexists. split; [reflexivity|].
    intros l c'' (H1 & H2 & H3 & H4). cbn [g_dpi g_size g_out g_gui] in *.
    split; [apply G; [discriminate|exact H1]|]. split; [apply G; [discriminate|exact H2]|].
    split; [apply G; [discriminate|exact H3]|]. eapply G1; eassumption.
Qed.
Lemma set_flag_valid n v c c' : set_flag parse_float n v c = Some c' ->
  ((n = "dpi" \/ n = "font-size") /\ parse_float v <> None) \/ n = "o" \/ (n = "gui" /\ boolean v <> None).
Proof.
  unfold set_flag. rewrite parse_bool_eq. destruct (String.eqb n "dpi") eqn:E1; [apply String.eqb_eq in E1; subst|].
  { destruct (parse_float v); [|discriminate]. intros _. left. split; [auto|discriminate]. }
  destruct (String.eqb n "font-size") eqn:E2; [apply String.eqb_eq in E2; subst|].
  { destruct (parse_float v); [|discriminate]. intros _. left. split; [auto|discriminate]. }
  destruct (String.eqb n "o") eqn:E3; [apply String.eqb_eq in E3; subst; auto|].
  destruct (String.eqb n "gui") eqn:E4; [apply String.eqb_eq in E4; subst|discriminate].
  destruct (boolean v); [|discriminate]. intros _. right. right. split; [reflexivity|discriminate].
Qed.

Lemma name_cases n v : ((n = "dpi" \/ n = "font-size") /\ parse_float v <> None) \/ n = "o" \/ (n = "gui" /\ boolean v <> None) ->
  n = "dpi" \/ n = "font-size" \/ n = "o" \/ n = "gui".
Proof. tauto. Qed.
Lemma flag_step s c rest : valid s ->
  parse_flags parse_float c (text s ++ rest) =
  match set_flag parse_float (fst (sets s)) (snd (sets s)) c with Some c' => parse_flags parse_float c' rest | None => Bad end.
Proof.
  intros V. destruct s as [t n v|t n v|t]; cbn [text sets fst snd] in *; destruct V as [V0 V].
  - apply name_cases in V.
    assert (CE : cut_eq (n ++ "=" ++ v) = (n, Some v)).
    { apply cut_eq_at. intros c0 I. destruct V as [->|[->|[->| ->]]]; cbn in I;
        repeat (destruct I as [<-|I]; [reflexivity|]); destruct I. }
    destruct V as [->|[->|[->| ->]]]; destruct t; cbn in CE |- *; reflexivity.
  - apply name_cases in V. destruct V as [->|[->|[->| ->]]]; [| | |contradiction]; destruct t; cbn; reflexivity.
  - destruct t; cbn; reflexivity.
Qed.
Lemma flags_forward l : forall c rest, Forall valid l -> exists c', with_ c l c' /\
  parse_flags parse_float c (flat_map text l ++ rest) = parse_flags parse_float c' rest.
Proof.
  induction l as [|s l IH]; intros c rest V; cbn [flat_map app].
  - exists c. split; [repeat split|reflexivity].
  - inversion V as [|? ? V1 V2]; subst. rewrite <- app_assoc, flag_step by assumption.
    destruct (set_flag_with s c V1) as (c1 & -> & W). destruct (IH c1 rest V2) as (c2 & W2 & E). eauto.
Qed.
Lemma flags_stop rest c : match rest with s :: _ => ~ looks_like_flag s | [] => True end -> parse_flags parse_float c rest = Parsed c rest.
Proof.
  destruct rest as [|s rest]; [reflexivity|]. intros N. destruct s as [|a [|b s]]; [reflexivity| |].
  - cbn. destruct a as [[] [] [] [] [] [] [] []]; reflexivity.
  - cbn. destruct a as [[] [] [] [] [] [] [] []]; try reflexivity. exfalso. apply N. eexists _, _. reflexivity.
Qed.
Lemma with_unique c l c1 c2 : with_ c l c1 -> with_ c l c2 -> c1 = c2.
Proof.
  intros (A1 & A2 & A3 & A4) (B1 & B2 & B3 & B4). destruct c1 as [d1 z1 o1 b1], c2 as [d2 z2 o2 b2]. cbn [g_dpi g_size g_out g_gui] in *.
  unfold given in *. destruct (latest "dpi" l), (latest "font-size" l), (latest "o" l), (latest "gui" l); congruence.
Qed.

Lemma flags_backward : forall k args c c' rest, (List.length args <= k)%nat -> parse_flags parse_float c args = Parsed c' rest ->
  exists l, command_line args l rest /\ with_ c l c'.
Proof.
  induction k as [|k IH]; intros args c c' rest L H.
  { destruct args; [|cbn in L; lia]. cbn in H. injection H as <- <-. exists []. split; [split; [constructor|right; split; [reflexivity|exact I]]|repeat split]. }
  assert (STOP : forall s r, args = s :: r -> ~ looks_like_flag s -> exists l, command_line args l rest /\ with_ c l c').
  { intros s r E N. rewrite (flags_stop args c) in H by (rewrite E; exact N). injection H as <- <-. exists []. split; [|repeat split].
    split; [constructor|]. right. split; [reflexivity|]. now rewrite E. }
  destruct args as [|s args].
  { cbn in H. injection H as <- <-. exists []. split; [split; [constructor|right; split; [reflexivity|exact I]]|repeat split]. }
  destruct s as [|a [|b s]]; [apply (STOP _ _ eq_refl); intros (? & ? & ?); discriminate|apply (STOP _ _ eq_refl); intros (? & ? & ?); discriminate|].
  destruct (Ascii.eqb a "-") eqn:EA.
  2:{ apply (STOP _ _ eq_refl). intros (x & s' & Q). assert (a = "-"%char) by (inversion Q; reflexivity). subst a. discriminate EA. }
  apply Ascii.eqb_eq in EA. subst a. clear STOP.
  assert (CONS : forall st r c1, valid st -> String "-" (String b s) :: args = text st ++ r -> (List.length r <= k)%nat ->
    set_flag parse_float (fst (sets st)) (snd (sets st)) c = Some c1 -> parse_flags parse_float c1 r = Parsed c' rest ->
    exists l, command_line (String "-" (String b s) :: args) l rest /\ with_ c l c').
  { intros st r c1 V E LR SF P. apply IH in P as (l & (VL & CL) & W); [|exact LR]. exists (st :: l). split.
    - split; [constructor; assumption|]. cbn [flat_map]. rewrite E.
      destruct CL as [->|[-> N]]; [left; now rewrite <- app_assoc|right; split; [now rewrite <- app_assoc|exact N]].
    - destruct (set_flag_with st c V) as (c2 & E2 & W2). rewrite SF in E2. injection E2 as <-. now apply W2. }
  cbn [parse_flags] in H. cbn [List.length] in L.
  destruct (Ascii.eqb b "-" && String.eqb s "") eqn:DD.
  { apply andb_true_iff in DD as [D1 D2]. apply Ascii.eqb_eq in D1. apply String.eqb_eq in D2. subst b s. injection H as <- <-.
    exists []. split; [split; [constructor|left; reflexivity]|repeat split]. }
  set (name := if Ascii.eqb b "-" then s else String b s) in *.
  assert (TXT : exists t, String "-" (String b s) = (dash t ++ name)%string).
  { unfold name. destruct (Ascii.eqb b "-") eqn:EB; [apply Ascii.eqb_eq in EB; subst b; exists true; reflexivity|exists false; reflexivity]. }
  destruct TXT as (t & TXT). clearbody name. destruct name as [|y name]; [discriminate H|].
  destruct (Ascii.eqb y "-" || Ascii.eqb y "="); [discriminate H|].
  destruct (cut_eq (String y name)) as [nm value] eqn:CE. apply cut_eq_inv in CE.
  destruct (negb (defined nm)); [destruct (String.eqb nm "help" || String.eqb nm "h"); discriminate H|].
  destruct (String.eqb nm "gui") eqn:EG.
  - apply String.eqb_eq in EG. subst nm.
    destruct (set_flag parse_float "gui" _ c) as [c1|] eqn:SF; [|discriminate H].
    pose proof (set_flag_valid _ _ _ _ SF) as V.
    destruct value as [v|].
    + eapply (CONS (Joined t "gui" v) args c1); [split; [exact I|exact V]| |lia|exact SF|exact H].
      cbn [text app]. rewrite TXT, CE. reflexivity.
    + eapply (CONS (Switch t) args c1); [split; [exact I|exact V]| |lia|exact SF|exact H].
      cbn [text app]. rewrite TXT, CE. reflexivity.
  - destruct value as [v|].
    + destruct (set_flag parse_float nm v c) as [c1|] eqn:SF; [|discriminate H].
      pose proof (set_flag_valid _ _ _ _ SF) as V.
      eapply (CONS (Joined t nm v) args c1); [split; [exact I|exact V]| |lia|exact SF|exact H].
      cbn [text app]. rewrite TXT, CE. reflexivity.
    + destruct args as [|v args]; [discriminate H|].
      destruct (set_flag parse_float nm v c) as [c1|] eqn:SF; [|discriminate H].
      pose proof (set_flag_valid _ _ _ _ SF) as V. cbn [List.length] in L.
      eapply (CONS (Apart t nm v) args c1); [split; [|exact V]| |lia|exact SF|exact H].
      * intros ->. discriminate EG.
      * cbn [text app]. rewrite TXT, CE. reflexivity.
Qed.

(** The command line is understood exactly when it is a sequence of settings
    followed by the other arguments, and the last setting of each flag counts. *)
Theorem C68_flags : forall args c rest,
  parse_flags parse_float defaults args = Parsed c rest <-> exists l, command_line args l rest /\ configured l c.
Proof.
  intros args c rest. split.
  - intros H. apply (flags_backward _ _ _ _ _ (le_n _)) in H. exact H.
  - intros (l & (V & CL) & W). change (with_ defaults l c) in W. destruct CL as [->|[-> N]].
    + destruct (flags_forward l defaults ("--" :: rest) V) as (c' & W' & ->). rewrite (with_unique _ _ _ _ W W'). reflexivity.
    + destruct (flags_forward l defaults rest V) as (c' & W' & ->). rewrite (with_unique _ _ _ _ W W'). now apply flags_stop.
Qed.
(** Help is asked for: "-h" or "-help", with one or two dashes, after any settings. *)
Definition help_word (w : string) : Prop :=
  exists two n, (n = "h" \/ n = "help") /\ (w = (dash two ++ n)%string \/ exists v, w = (dash two ++ n ++ "=" ++ v)%string).
Definition wants_help (args : list string) : Prop :=
  exists l w more, Forall valid l /\ args = flat_map text l ++ w :: more /\ help_word w.
Lemma help_step w more c : help_word w -> parse_flags parse_float c (w :: more) = Help.
Proof.
  intros (two & n & N & W).
  assert (CE : forall v, cut_eq (n ++ "=" ++ v) = (n, Some v)).
  { intros v. apply cut_eq_at. intros c0 I. destruct N as [->| ->]; cbn in I; repeat (destruct I as [<-|I]; [reflexivity|]); destruct I. }
  destruct W as [->|(v & ->)].
  - destruct N as [->| ->]; destruct two; reflexivity.
  - specialize (CE v). destruct N as [->| ->]; destruct two; cbn in CE |- *; reflexivity.
Qed.
Lemma help_backward : forall k args c, (List.length args <= k)%nat -> parse_flags parse_float c args = Help -> wants_help args.
Proof.
  induction k as [|k IH]; intros args c L H.
  { destruct args; [|cbn in L; lia]. discriminate H. }
  destruct args as [|s args]; [discriminate H|].
  assert (NF : ~ looks_like_flag s -> False).
  { intros N. rewrite (flags_stop (s :: args) c N) in H. discriminate H. }
  destruct s as [|a [|b s]]; [destruct NF; intros (? & ? & ?); discriminate|destruct NF; intros (? & ? & ?); discriminate|].
  destruct (Ascii.eqb a "-") eqn:EA.
  2:{ destruct NF. intros (x & s' & Q). assert (a = "-"%char) by (inversion Q; reflexivity). subst a. discriminate EA. }
  apply Ascii.eqb_eq in EA. subst a. clear NF.
  assert (CONS : forall st r c1, valid st -> String "-" (String b s) :: args = text st ++ r -> (List.length r <= k)%nat ->
    parse_flags parse_float c1 r = Help -> wants_help (String "-" (String b s) :: args)).
  { intros st r c1 V E LR P. apply IH in P as (l & w & more & VL & CL & HW); [|exact LR]. exists (st :: l), w, more. split; [constructor; assumption|].
    split; [|exact HW]. cbn [flat_map]. rewrite E, CL. apply app_assoc. }
  cbn [parse_flags] in H. cbn [List.length] in L.
  destruct (Ascii.eqb b "-" && String.eqb s "") eqn:DD; [discriminate H|].
  set (name := if Ascii.eqb b "-" then s else String b s) in *.
  assert (TXT : exists t, String "-" (String b s) = (dash t ++ name)%string).
  { unfold name. destruct (Ascii.eqb b "-") eqn:EB; [apply Ascii.eqb_eq in EB; subst b; exists true; reflexivity|exists false; reflexivity]. }
  destruct TXT as (t & TXT). clearbody name. destruct name as [|y name]; [discriminate H|].
  destruct (Ascii.eqb y "-" || Ascii.eqb y "="); [discriminate H|].
  destruct (cut_eq (String y name)) as [nm value] eqn:CE. apply cut_eq_inv in CE.
  destruct (negb (defined nm)).
  { destruct (String.eqb nm "help" || String.eqb nm "h") eqn:HH; [|discriminate H]. exists [], (String "-" (String b s)), args. split; [constructor|].
    split; [reflexivity|]. exists t, nm. split.
    - apply orb_true_iff in HH as [HH|HH]; apply String.eqb_eq in HH; auto.
    - rewrite TXT, CE. destruct value as [v|]; [right; exists v; reflexivity|left; reflexivity]. }
  destruct (String.eqb nm "gui") eqn:EG.
  - apply String.eqb_eq in EG. subst nm.
    destruct (set_flag parse_float "gui" _ c) as [c1|] eqn:SF; [|discriminate H].
    pose proof (set_flag_valid _ _ _ _ SF) as V.
    destruct value as [v|].
    + eapply (CONS (Joined t "gui" v) args c1); [split; [exact I|exact V]| |lia|exact H].
      cbn [text app]. rewrite TXT, CE. reflexivity.
    + eapply (CONS (Switch t) args c1); [split; [exact I|exact V]| |lia|exact H].
      cbn [text app]. rewrite TXT, CE. reflexivity.
  - destruct value as [v|].
    + destruct (set_flag parse_float nm v c) as [c1|] eqn:SF; [|discriminate H].
      pose proof (set_flag_valid _ _ _ _ SF) as V.
      eapply (CONS (Joined t nm v) args c1); [split; [exact I|exact V]| |lia|exact H].
      cbn [text app]. rewrite TXT, CE. reflexivity.
    + destruct args as [|v args]; [discriminate H|].
      destruct (set_flag parse_float nm v c) as [c1|] eqn:SF; [|discriminate H].
      pose proof (set_flag_valid _ _ _ _ SF) as V. cbn [List.length] in L.
      eapply (CONS (Apart t nm v) args c1); [split; [|exact V]| |lia|exact H].
      * intros ->. discriminate EG.
      * cbn [text app]. rewrite TXT, CE. reflexivity.
Qed.
Theorem C68_help : forall args, parse_flags parse_float defaults args = Help <-> wants_help args.
Proof.
  intros args. split; [apply (help_backward _ _ _ (le_n _))|].
  intros (l & w & more & V & -> & HW). destruct (flags_forward l defaults (w :: more) V) as (c' & _ & ->). now apply help_step.
Qed.
End Flags.

(** ** Files *)
Definition is_prefix (x y : string) : Prop := exists z, y = (x ++ z)%string.
Notation joined := (String.concat "").
Lemma sapp_nil x : (x ++ "")%string = x. Proof. induction x as [|c x IH]; [reflexivity|]. cbn. now rewrite IH. Qed.
Lemma sapp_assoc x y z : ((x ++ y) ++ z = x ++ (y ++ z))%string. Proof. induction x as [|c x IH]; [reflexivity|]. cbn. now rewrite IH. Qed.
Lemma joined_cons d ds : joined (d :: ds) = (d ++ joined ds)%string.
Proof. destruct ds as [|e ds]; [cbn; now rewrite sapp_nil|reflexivity]. Qed.
Lemma joined_app a b : joined (a ++ b) = (joined a ++ joined b)%string.
Proof. induction a as [|x a IH]; [reflexivity|]. cbn [app]. now rewrite !joined_cons, IH, sapp_assoc. Qed.
Lemma substring_prefix k w : is_prefix (String.substring 0 k w) w.
Proof.
  revert w. induction k as [|k IH]; intros w.
  - destruct w; eexists; reflexivity.
  - destruct w as [|c w]; [eexists; reflexivity|]. destruct (IH w) as (z & E). exists z. cbn. now rewrite <- E.
Qed.
Lemma do_actions_app l1 l2 fs : do_actions (l1 ++ l2) fs = do_actions l2 (do_actions l1 fs).
Proof. apply fold_left_app. Qed.
Lemma do_writes p ds : forall fs x, fs p = Some x -> do_actions (map (Write p) ds) fs p = Some (x ++ joined ds)%string.
Proof.
  induction ds as [|d ds IH]; intros fs x E.
  - cbn. now rewrite sapp_nil.
  - cbn [map]. change (do_actions (Write p d :: map (Write p) ds) fs) with (do_actions (map (Write p) ds) (do_action (Write p d) fs)).
    rewrite (IH _ (x ++ d)%string); [now rewrite joined_cons, sapp_assoc|]. cbn. now rewrite String.eqb_refl, E.
Qed.
Lemma do_writes_other p q ds : q <> p -> forall fs, do_actions (map (Write p) ds) fs q = fs q.
Proof.
  intros N. induction ds as [|d ds IH]; intros fs; [reflexivity|]. cbn [map].
  change (do_actions (Write p d :: map (Write p) ds) fs) with (do_actions (map (Write p) ds) (do_action (Write p d) fs)).
  rewrite IH. cbn. destruct (String.eqb q p) eqn:E; [apply String.eqb_eq in E; contradiction|reflexivity].
Qed.
Lemma do_file p ds fs : do_actions (Create p :: map (Write p) ds) fs p = Some (joined ds).
Proof.
  change (do_actions (Create p :: map (Write p) ds) fs) with (do_actions (map (Write p) ds) (do_action (Create p) fs)).
  rewrite (do_writes _ _ _ ""); [reflexivity|]. cbn. now rewrite String.eqb_refl.
Qed.
Lemma do_file_other p q ds fs : q <> p -> do_actions (Create p :: map (Write p) ds) fs q = fs q.
Proof.
  intros N. change (do_actions (Create p :: map (Write p) ds) fs) with (do_actions (map (Write p) ds) (do_action (Create p) fs)).
  rewrite do_writes_other by assumption. cbn. destruct (String.eqb q p) eqn:E; [apply String.eqb_eq in E; contradiction|reflexivity].
Qed.

Section Run.
Context {A : arith} {Fnt : Type}.
Hypothesis ZL : zero_laws (A := A).
Variables (U : Z -> bool) (range : Symbols.gset -> list string) (parse_float : string -> option (Arith.F A)).
Variables (sf : @sfnt A Fnt) (dflt : @fonts Fnt).
Variables (face_ok : option Fnt -> Arith.F A -> Arith.F A -> bool) (png : list (@gg A Fnt) -> list string * option string).
Variables (lm liberation : option (@fonts Fnt)) (sys : system).
Notation main := (main U range parse_float sf dflt face_ok png lm liberation sys).

(** The arguments ask for the picture of [expr], with the configuration [c]. *)
Definition requests (args : list string) (c : @config A) (expr : string) : Prop :=
  exists l, command_line parse_float args l [expr] /\ configured parse_float l c /\ g_gui c = false.
(** The picture of [expr] is drawn with the Liberation fonts and encoded in the pieces
    [ws]; [err] is the error of the encoder. *)
Definition picture (c : @config A) (expr : string) (ws : list string) (err : option string) : Prop :=
  exists fl fnts call cmds, lm = Some fl /\ liberation = Some fnts /\
    render U range parse_float sf dflt (fun _ => DstNil) expr (g_size c) (g_dpi c) (Some fnts) = Some ([call], RetNil) /\
    img_render face_ok call = LOk cmds /\ png cmds = (ws, err).

Lemma write_all_spec ws err : forall n l r, write_all sys n ws err = (l, r) ->
  is_prefix (joined l) (joined ws) /\ (r = DstNil -> l = ws /\ err = None) /\ (forall e, r <> DstPanic e).
Proof.
  induction ws as [|w ws IH]; intros n l r H; cbn [write_all] in H.
  - injection H as <- <-. split; [exists ""; reflexivity|]. split; destruct err; try discriminate; auto.
  - destruct (sys_write sys n w) as [[k e]|].
    + injection H as <- <-. split; [|split; discriminate]. destruct (substring_prefix k w) as (z & E).
      exists (z ++ joined ws)%string. rewrite joined_cons, E at 1. change (joined [substring 0 k w]) with (substring 0 k w). now rewrite sapp_assoc.
    + destruct (write_all sys (Datatypes.S n) ws err) as [l' r'] eqn:E. injection H as <- <-.
      apply IH in E as ((z & E1) & E2 & E3). split; [|split; [|exact E3]].
      * exists z. now rewrite !joined_cons, E1, sapp_assoc.
      * intros R. destruct (E2 R) as [-> ->]. auto.
Qed.
Lemma write_all_ok ws err : (forall n w, sys_write sys n w = None) -> forall n,
  write_all sys n ws err = (ws, match err with None => DstNil | Some e => DstErr e end).
Proof. intros H. induction ws as [|w ws IH]; intros n; cbn [write_all]; [reflexivity|]. now rewrite H, IH. Qed.

(** The renderer does not influence what it is asked to draw. *)
Lemma render_calls x size dpi fnts :
  (exists e, forall dst, render U range parse_float sf dflt dst x size dpi fnts = Some ([], Panics e)) \/
  (exists c, forall dst, render U range parse_float sf dflt dst x size dpi fnts = Some ([c], ret_of (dst c))).
Proof.
  destruct (C47_dpi_generic ZL U range parse_float sf dflt (fun _ => DstNil) x size dpi fnts) as [H|(c & H)].
  - left. destruct (H dpi) as (e & E & _). exists e. intros dst. revert E. unfold render.
    destruct (mtex_parse _ _ _ _ _ _ _ _) as [[[[t [er|]] s]|er]|]; try discriminate; auto.
    destruct (ship_call _ _ _) as [[t' st]|]; auto. destruct (draw_all _ _ _ _) as [[[]|] s']; auto. cbn. discriminate.
  - right. exists (at_dpi dpi c). intros dst. specialize (H dpi). revert H. unfold render.
    destruct (mtex_parse _ _ _ _ _ _ _ _) as [[[[t [er|]] s]|er]|]; try discriminate.
    destruct (ship_call _ _ _) as [[t' st]|]; try discriminate. destruct (draw_all _ _ _ _) as [[[]|] s']; try discriminate.
    cbn zeta. intros H. assert (Q : forall (a b : @dst_call A Fnt) u v, Some ([a], u : @outcome) = Some ([b], v) -> a = b) by (intros ? ? ? ? Z; now injection Z).
    apply Q in H. rewrite H. reflexivity.
Qed.

(** All runs. *)
Lemma main_cases args :
  (exists n, main args = ([], Exit n) /\ ~ (exists c expr, requests args c expr) /\ (n = 0 -> parse_flags parse_float defaults args = Help)) \/
  (main args = ([], Gui) /\ ~ (exists c expr, requests args c expr)) \/
  (exists c expr, requests args c expr /\
    ((main args = ([], Exit 1) /\ sys_create sys (g_out c) <> None) \/
     (sys_create sys (g_out c) = None /\
      exists ds st, main args = (Create (g_out c) :: map (Write (g_out c)) ds, st) /\
      ((ds = [] /\ (exists e, st = Panic e) /\ ~ (exists ws err, picture c expr ws err)) \/
       (exists ws err r, picture c expr ws err /\ write_all sys 0 ws err = (ds, r) /\
         st = match r with DstNil => match sys_close sys with Some _ => Exit 1 | None => Exit 0 end | _ => Exit 1 end))))).
Proof.
  unfold Cli.main.
  assert (NR : (forall c rest, parse_flags parse_float defaults args = Parsed c rest -> g_gui c = true \/ (forall e, rest <> [e])) ->
    ~ (exists c expr, requests args c expr)).
  { intros H (c & expr & l & CL & CF & G). pose proof (proj2 (C68_flags parse_float args c [expr]) (ex_intro _ l (conj CL CF))) as P.
    destruct (H _ _ P) as [E|E]; [congruence|now apply (E expr)]. }
  destruct (parse_flags parse_float defaults args) as [c rest| |] eqn:P.
  2:{ left. exists 0. split; [reflexivity|]. split; [|auto]. apply NR. discriminate. }
  2:{ left. exists 2. split; [reflexivity|]. split; [|discriminate]. apply NR. discriminate. }
  destruct (g_gui c) eqn:G.
  { right. left. split; [reflexivity|]. apply NR. intros c' rest' E. injection E as <- <-. auto. }
  assert (R1 : forall x, rest = x -> (forall e, x <> [e]) -> ~ (exists c expr, requests args c expr)).
  { intros x -> N. apply NR. intros c' rest' E. injection E as <- <-. auto. }
  destruct rest as [|expr [|e2 rest]].
  1,3: left; exists 1; (split; [reflexivity|]); (split; [eapply R1; [reflexivity|discriminate]|discriminate]).
  right. right. exists c, expr. split.
  { apply C68_flags in P as (l & CL & CF). exists l. auto. }
  destruct (sys_create sys (g_out c)) as [er|] eqn:SC; [left; split; [reflexivity|discriminate]|]. right. split; [reflexivity|].
  destruct lm as [fl|] eqn:LM.
  2:{ exists [], (Panic "could not parse fonts"). split; [reflexivity|]. left. split; [reflexivity|]. split; [eauto|].
      intros (ws & err & f1 & f2 & call & cmds & E & _). congruence. }
  destruct liberation as [fnts|] eqn:LB.
  2:{ exists [], (Panic "could not parse fonts"). split; [reflexivity|]. left. split; [reflexivity|]. split; [eauto|].
      intros (ws & err & f1 & f2 & call & cmds & _ & E & _). congruence. }
  destruct (render_calls expr (g_size c) (g_dpi c) (Some fnts)) as [(e & H)|(call & H)].
  - rewrite H. exists [], (Panic e). split; [reflexivity|]. left. split; [reflexivity|]. split; [eauto|].
    intros (ws & err & f1 & f2 & call & cmds & _ & E & R & _). rewrite LB in E. injection E as <-. rewrite H in R. discriminate R.
  - rewrite H. cbn [flat_map]. rewrite app_nil_r. unfold png_file.
    destruct (img_render face_ok call) as [cmds|e] eqn:IM.
    + destruct (png cmds) as [ws err] eqn:PN. destruct (write_all sys 0 ws err) as [ds r] eqn:WA. cbn [fst snd].
      eexists ds, _. split; [reflexivity|]. right. exists ws, err, r. split.
      { exists fl, fnts, call, cmds. rewrite H. auto. }
      split; [exact WA|]. apply write_all_spec in WA as (_ & _ & NP). destruct r as [|e|e]; [reflexivity|reflexivity|]. now destruct (NP e).
    + cbn [fst snd ret_of map]. exists [], (Panic e). split; [reflexivity|]. left. split; [reflexivity|]. split; [eauto|].
      intros (ws & err & f1 & f2 & call' & cmds & _ & E & R & IM' & _). rewrite LB in E. injection E as <-. rewrite H in R.
      injection R as <-. congruence.
Qed.

(** However the command ends, and if it is stopped after any of its writes: no file
    but the output file has changed, and the output file is untouched, or empty, or
    holds a beginning of the picture of the expression. *)
Theorem C67_crash_generic : forall args acts st pre post fs p,
  main args = (acts, st) -> acts = pre ++ post ->
  do_actions pre fs p = fs p \/
  exists c expr, requests args c expr /\ p = g_out c /\
    (do_actions pre fs p = Some "" \/
     exists ws err x, picture c expr ws err /\ do_actions pre fs p = Some x /\ is_prefix x (joined ws)).
Proof.
  intros args acts st pre post fs p M E.
  destruct (main_cases args) as [(n & H & _)|[(H & _)|(c & expr & RQ & [(H & _)|(_ & ds & st' & H & C)])]]; rewrite H in M; injection M as <- <-.
  1-3: symmetry in E; apply app_eq_nil in E as [-> _]; left; reflexivity.
  destruct pre as [|a pre]; [left; reflexivity|]. injection E as <- E. symmetry in E. 
  assert (exists d1 d2, ds = d1 ++ d2 /\ pre = map (Write (g_out c)) d1) as (d1 & d2 & -> & ->).
  { clear -E. revert ds E. induction pre as [|a pre IH]; intros ds E; [exists [], ds; auto|].
    destruct ds as [|d ds]; [discriminate E|]. injection E as -> E. apply IH in E as (d1 & d2 & -> & ->). exists (d :: d1), d2. auto. }
  destruct (string_dec p (g_out c)) as [->|N]; [|left; now apply do_file_other].
  right. exists c, expr. split; [exact RQ|]. split; [reflexivity|]. rewrite do_file.
  destruct C as [(Z & _)|(ws & err & r & P & WA & _)].
  - left. apply app_eq_nil in Z as [-> _]. reflexivity.
  - right. exists ws, err, (joined d1). split; [exact P|]. split; [reflexivity|].
    apply write_all_spec in WA as ((z & W) & _). exists (joined d2 ++ z)%string. rewrite W, joined_app. apply sapp_assoc.
Qed.

(** Exit status 0 means that the whole picture has been written (or that help was
    asked for). *)
Theorem C67_success_generic : forall args acts, main args = (acts, Exit 0) ->
  (acts = [] /\ wants_help parse_float args) \/
  exists c expr ws, requests args c expr /\ picture c expr ws None /\ sys_create sys (g_out c) = None /\ sys_close sys = None /\
    forall fs, do_actions acts fs (g_out c) = Some (joined ws) /\ forall p, p <> g_out c -> do_actions acts fs p = fs p.
Proof.
  intros args acts M.
  destruct (main_cases args) as [(n & H & _ & Z)|[(H & _)|(c & expr & RQ & [(H & _)|(SC & ds & st' & H & C)])]]; rewrite H in M;
    try discriminate M.
  - injection M as <- ->. left. split; [reflexivity|]. apply C68_help. auto.
  - injection M as <- ->. right. destruct C as [(_ & (e & Z) & _)|(ws & err & r & P & WA & ST)]; [discriminate Z|].
    destruct r; try discriminate ST. apply write_all_spec in WA as (_ & W & _). destruct (W eq_refl) as [-> ->].
    exists c, expr, ws. split; [exact RQ|]. split; [exact P|]. split; [exact SC|]. split; [destruct (sys_close sys); [discriminate ST|reflexivity]|].
    intros fs. split; [apply do_file|]. intros q N. now apply do_file_other.
Qed.
(** If nothing fails, it succeeds. *)
Theorem C67_succeeds_generic : forall args c expr ws,
  requests args c expr -> picture c expr ws None ->
  sys_create sys (g_out c) = None -> (forall n w, sys_write sys n w = None) -> sys_close sys = None ->
  main args = (Create (g_out c) :: map (Write (g_out c)) ws, Exit 0).
Proof.
  intros args c expr ws RQ P SC SW CL.
  assert (UQ : forall c' expr', requests args c' expr' -> c' = c /\ expr' = expr).
  { intros c' expr' (l' & L1 & L2 & _). destruct RQ as (l & L3 & L4 & _).
    pose proof (proj2 (C68_flags parse_float args c' [expr']) (ex_intro _ l' (conj L1 L2))) as E1.
    pose proof (proj2 (C68_flags parse_float args c [expr]) (ex_intro _ l (conj L3 L4))) as E2. rewrite E1 in E2. injection E2 as -> ->. auto. }
  destruct (main_cases args) as [(n & _ & N & _)|[(_ & N)|(c' & expr' & RQ' & [(_ & N)|(_ & ds & st' & H & C)])]].
  1,2: destruct N; eauto.
  - destruct (UQ _ _ RQ') as [-> ->]. contradiction.
  - destruct (UQ _ _ RQ') as [-> ->]. rewrite H. destruct C as [(_ & _ & N)|(ws' & err & r & P' & WA & ->)]; [destruct N; eauto|].
    destruct P as (f1 & f2 & c1 & k1 & _ & B1 & B2 & B3 & B4), P' as (f3 & f4 & c2 & k2 & _ & D1 & D2 & D3 & D4).
    rewrite B1 in D1. injection D1 as <-. rewrite B2 in D2. injection D2 as <-. rewrite B3 in D3. injection D3 as <-.
    rewrite B4 in D4. injection D4 as <- <-. rewrite (write_all_ok ws None SW) in WA. injection WA as <- <-. rewrite CL. reflexivity.
Qed.
(** If the picture can be drawn but is not written completely, the status is 1, and
    there was an error of the encoder, of a Write or of Close. *)
Theorem C67_error_generic : forall args c expr ws err acts st,
  requests args c expr -> picture c expr ws err -> sys_create sys (g_out c) = None -> main args = (acts, st) -> st <> Exit 0 ->
  st = Exit 1 /\ (err <> None \/ (exists n w, sys_write sys n w <> None) \/ sys_close sys <> None).
Proof.
  intros args c expr ws err acts st RQ P SC M NE.
  assert (UQ : forall c' expr', requests args c' expr' -> c' = c /\ expr' = expr).
  { intros c' expr' (l' & L1 & L2 & _). destruct RQ as (l & L3 & L4 & _).
    pose proof (proj2 (C68_flags parse_float args c' [expr']) (ex_intro _ l' (conj L1 L2))) as E1.
    pose proof (proj2 (C68_flags parse_float args c [expr]) (ex_intro _ l (conj L3 L4))) as E2. rewrite E1 in E2. injection E2 as -> ->. auto. }
  destruct (main_cases args) as [(n & _ & N & _)|[(_ & N)|(c' & expr' & RQ' & [(_ & N)|(_ & ds & st' & H & C)])]].
  1,2: destruct N; eauto.
  - destruct (UQ _ _ RQ') as [-> ->]. contradiction.
  - destruct (UQ _ _ RQ') as [-> ->]. rewrite H in M. injection M as <- <-. destruct C as [(_ & _ & N)|(ws' & err' & r & P' & WA & ST)]; [destruct N; eauto|].
    destruct P as (f1 & f2 & c1 & k1 & _ & B1 & B2 & B3 & B4), P' as (f3 & f4 & c2 & k2 & _ & D1 & D2 & D3 & D4).
    rewrite B1 in D1. injection D1 as <-. rewrite B2 in D2. injection D2 as <-. rewrite B3 in D3. injection D3 as <-.
    rewrite B4 in D4. injection D4 as <- <-. subst st'. destruct r as [|e|e].
    + destruct (sys_close sys); [|now destruct NE]. split; [reflexivity|]. right. right. discriminate.
    + split; [reflexivity|]. clear -WA. revert WA. generalize 0%nat at 1 as n. revert ds. induction ws as [|w ws IH]; intros ds n WA; cbn [write_all] in WA.
      * destruct err; [left; discriminate|injection WA; discriminate].
      * destruct (sys_write sys n w) as [[k er]|] eqn:SW; [right; left; exists n, w; congruence|].
        destruct (write_all sys (Datatypes.S n) ws err) as [l' r'] eqn:W2. injection WA as <- ->. exact (IH _ _ W2).
    + apply write_all_spec in WA as (_ & _ & NP). now destruct (NP e).
Qed.
(** The other ways to end. *)
Theorem C68_status_generic : forall args,
  (wants_help parse_float args -> main args = ([], Exit 0)) /\
  (~ wants_help parse_float args -> ~ (exists l rest, command_line parse_float args l rest) -> main args = ([], Exit 2)) /\
  (forall l rest c, command_line parse_float args l rest -> configured parse_float l c ->
     (g_gui c = true -> main args = ([], Gui)) /\
     (g_gui c = false -> List.length rest <> 1%nat -> main args = ([], Exit 1)) /\
     (g_gui c = false -> List.length rest = 1%nat -> sys_create sys (g_out c) <> None -> main args = ([], Exit 1))).
Proof.
  intros args. split; [|split].
  - intros W. apply C68_help in W. unfold Cli.main. now rewrite W.
  - intros NH NC. unfold Cli.main. destruct (parse_flags parse_float defaults args) as [c rest| |] eqn:P; [| |reflexivity].
    + apply C68_flags in P as (l & CL & _). destruct NC. eauto.
    + apply C68_help in P. contradiction.
  - intros l rest c CL CF. pose proof (proj2 (C68_flags parse_float args c rest) (ex_intro _ l (conj CL CF))) as P.
    unfold Cli.main. rewrite P. split; [intros ->; reflexivity|]. split; intros ->; destruct rest as [|x [|y rest]]; cbn [List.length]; intros L; try lia; try reflexivity.
    destruct (sys_create sys (g_out c)); [reflexivity|contradiction].
Qed.
(** An expression that cannot be drawn empties an existing output file. *)
Theorem C67_lost_generic : forall args c expr acts st,
  requests args c expr -> sys_create sys (g_out c) = None -> ~ (exists ws err, picture c expr ws err) ->
  main args = (acts, st) -> (exists e, st = Panic e) /\ forall fs, do_actions acts fs (g_out c) = Some "".
Proof.
  intros args c expr acts st RQ SC NP M.
  assert (UQ : forall c' expr', requests args c' expr' -> c' = c /\ expr' = expr).
  { intros c' expr' (l' & L1 & L2 & _). destruct RQ as (l & L3 & L4 & _).
    pose proof (proj2 (C68_flags parse_float args c' [expr']) (ex_intro _ l' (conj L1 L2))) as E1.
    pose proof (proj2 (C68_flags parse_float args c [expr]) (ex_intro _ l (conj L3 L4))) as E2. rewrite E1 in E2. injection E2 as -> ->. auto. }
  destruct (main_cases args) as [(n & _ & N & _)|[(_ & N)|(c' & expr' & RQ' & [(_ & N)|(_ & ds & st' & H & C)])]].
  1,2: destruct N; eauto.
  - destruct (UQ _ _ RQ') as [-> ->]. contradiction.
  - destruct (UQ _ _ RQ') as [-> ->]. rewrite H in M. injection M as <- <-.
    destruct C as [(-> & (e & ->) & _)|(ws & err & r & P & _)]; [|destruct NP; eauto].
    split; [eauto|]. intros fs. apply (do_file _ []).
Qed.
(** Without a request, or when the output file cannot be created, no file is
    touched. *)
Theorem C67_untouched_generic : forall args acts st, main args = (acts, st) ->
  (forall c expr, requests args c expr -> sys_create sys (g_out c) <> None) ->
  acts = [] /\ (exists n, st = Exit n) \/ acts = [] /\ st = Gui.
Proof.
  intros args acts st M NR.
  destruct (main_cases args) as [(n & H & _)|[(H & _)|(c & expr & RQ & [(H & _)|(SC & _)])]]; try (rewrite H in M; injection M as <- <-; eauto).
  destruct (NR _ _ RQ SC).
Qed.
End Run.

(** ** For float64 *)
Section Float.
Variables (Fnt : Type) (U : Z -> bool) (range : Symbols.gset -> list string) (pf : string -> option (Arith.F float64)).
Variables (sf : @sfnt float64 Fnt) (dflt : @fonts Fnt) (face_ok : option Fnt -> Arith.F float64 -> Arith.F float64 -> bool).
Variables (png : list (@gg float64 Fnt) -> list string * option string) (lm liberation : option (@fonts Fnt)) (sys : system).
Notation main := (main U range pf sf dflt face_ok png lm liberation sys).
Notation picture := (picture U range pf sf dflt face_ok png lm liberation).
Corollary C67_crash : forall args acts st pre post fs p,
  main args = (acts, st) -> acts = pre ++ post ->
  do_actions pre fs p = fs p \/
  exists c expr, requests pf args c expr /\ p = g_out c /\
    (do_actions pre fs p = Some "" \/
     exists ws err x, picture c expr ws err /\ do_actions pre fs p = Some x /\ is_prefix x (joined ws)).
Proof. exact (C67_crash_generic float64_zero U range pf sf dflt face_ok png lm liberation sys). Qed.
Corollary C67_success : forall args acts, main args = (acts, Exit 0) ->
  (acts = [] /\ wants_help pf args) \/
  exists c expr ws, requests pf args c expr /\ picture c expr ws None /\ sys_create sys (g_out c) = None /\ sys_close sys = None /\
    forall fs, do_actions acts fs (g_out c) = Some (joined ws) /\ forall p, p <> g_out c -> do_actions acts fs p = fs p.
Proof. exact (C67_success_generic float64_zero U range pf sf dflt face_ok png lm liberation sys). Qed.
Corollary C67_succeeds : forall args c expr ws,
  requests pf args c expr -> picture c expr ws None ->
  sys_create sys (g_out c) = None -> (forall n w, sys_write sys n w = None) -> sys_close sys = None ->
  main args = (Create (g_out c) :: map (Write (g_out c)) ws, Exit 0).
Proof. exact (C67_succeeds_generic float64_zero U range pf sf dflt face_ok png lm liberation sys). Qed.
Corollary C67_error : forall args c expr ws err acts st,
  requests pf args c expr -> picture c expr ws err -> sys_create sys (g_out c) = None -> main args = (acts, st) -> st <> Exit 0 ->
  st = Exit 1 /\ (err <> None \/ (exists n w, sys_write sys n w <> None) \/ sys_close sys <> None).
Proof. exact (C67_error_generic float64_zero U range pf sf dflt face_ok png lm liberation sys). Qed.
Corollary C68_status : forall args,
  (wants_help pf args -> main args = ([], Exit 0)) /\
  (~ wants_help pf args -> ~ (exists l rest, command_line pf args l rest) -> main args = ([], Exit 2)) /\
  (forall l rest c, command_line pf args l rest -> configured pf l c ->
     (g_gui c = true -> main args = ([], Gui)) /\
     (g_gui c = false -> List.length rest <> 1%nat -> main args = ([], Exit 1)) /\
     (g_gui c = false -> List.length rest = 1%nat -> sys_create sys (g_out c) <> None -> main args = ([], Exit 1))).
Proof. exact (C68_status_generic U range pf sf dflt face_ok png lm liberation sys). Qed.
Corollary C67_lost : forall args c expr acts st,
  requests pf args c expr -> sys_create sys (g_out c) = None -> ~ (exists ws err, picture c expr ws err) ->
  main args = (acts, st) -> (exists e, st = Panic e) /\ forall fs, do_actions acts fs (g_out c) = Some "".
Proof. exact (C67_lost_generic float64_zero U range pf sf dflt face_ok png lm liberation sys). Qed.
Corollary C67_untouched : forall args acts st, main args = (acts, st) ->
  (forall c expr, requests pf args c expr -> sys_create sys (g_out c) <> None) ->
  acts = [] /\ (exists n, st = Exit n) \/ acts = [] /\ st = Gui.
Proof. exact (C67_untouched_generic float64_zero U range pf sf dflt face_ok png lm liberation sys). Qed.
End Float.

(** ** Cases *)
Definition toy_pf (v : string) : option xq := if String.eqb v "144" then Some (Fin (Q2Qc 144)) else None.
Definition toy_png (cmds : list (@gg exact unit)) : list string * option string :=
  (["PNG"; "pixels"; "end"], if Nat.ltb (List.length cmds) 3 then Some "too small" else None).
Definition toy_sys : system := mk_system (fun p => if String.eqb p "/" then Some "is a directory" else None)
  (fun n w => if String.eqb w "full" then Some (2%nat, "disk full") else None) None.
Definition toy_main : list string -> list action * stop :=
  main (A := exact) ascii_only id_range toy_pf (toy exact) toy_fonts (fun _ _ _ => true) toy_png (Some toy_fonts) (Some toy_fonts) toy_sys.
Example C67_case : toy_main ["-o"; "x.png"; "--dpi=144"; "$x+\frac{a}{2}$"] =
  ([Create "x.png"; Write "x.png" "PNG"; Write "x.png" "pixels"; Write "x.png" "end"], Exit 0).
Proof. vm_compute. reflexivity. Qed.
Example C67_panic_case : toy_main ["$x^2$"] = ([Create "out.png"], Panic "unknown ast node").
Proof. vm_compute. reflexivity. Qed.
Example C67_other_cases : map toy_main [["-h"]; ["-gui=t"; "$x$"]; ["$x$"; "-o"; "y.png"]; []; ["-x"]; ["-dpi"; "--"; "$x$"]; ["-o"; "/"; "$x$"]] =
  [([], Exit 0); ([], Gui); ([], Exit 1); ([], Exit 1); ([], Exit 2); ([], Exit 2); ([], Exit 1)].
Proof. vm_compute. reflexivity. Qed.
Example C68_case : command_line toy_pf ["-o"; "x.png"; "--dpi=144"; "-o=y"; "--"; "-x"]
    [Apart false "o" "x.png"; Joined true "dpi" "144"; Joined false "o" "y"] ["-x"] /\
  latest "o" [Apart false "o" "x.png"; Joined true "dpi" "144"; Joined false "o" "y"] = Some "y".
Proof.
  split; [|reflexivity]. split; [|left; reflexivity].
  repeat (apply Forall_cons || apply Forall_nil); (split; [try discriminate; exact I|]); [right; left; reflexivity|left; split; [auto|discriminate]|right; left; reflexivity].
Qed.
Print Assumptions C67_crash. Print Assumptions C68_flags.
