(** C79, C80: the GUI of mtex-render. *)
From Coq Require Import ZArith String Ascii List Bool Lia QArith Qcanon.
From Verif Require Import Symbols PropSymbols Arith Exact Box Ship Parser Ast Mtex MtexSpec MtexFacts PropMtex Ttf TtfFacts PropTtf Render RenderFacts PropRender PropImage ShipFacts ShipFacts2 PropShip Backends Cli PropCli Gui.
Import ListNotations.
Local Open Scope string_scope.
Local Open Scope list_scope.
Local Open Scope Z_scope.

(** ** What the user does, and when pictures are looked at *)
Inductive move : Type :=
  | Typed (t : string)          (* the editor has this text now *)
  | Submit                      (* Ctrl+Enter or Ctrl+Return is pressed, or the button was clicked *)
  | LookImg | LookGio.          (* a picture is shown *)
Definition widget_moves (w : widget) : list move :=
  match w with
  | EditorBox t => [Typed t]
  | RenderButton (S _) => [Submit]
  | ImgBox => [LookImg]
  | GioBox => [LookGio]
  | _ => []
  end.
Definition moves (e : event) : list move :=
  match e with
  | Key (Enter | Return) true true => [Submit]
  | Frame ws _ => flat_map widget_moves ws
  | _ => []
  end.
Definition history (es : list event) : list move := flat_map moves es.

(** The text in the editor after [h]: what was typed last. *)
Definition written (h : list move) (t : string) : Prop :=
  (exists h1 h2, h = h1 ++ Typed t :: h2 /\ forall t', ~ In (Typed t') h2) \/
  ((forall t', ~ In (Typed t') h) /\ t = "$f(x) = \frac{\sqrt{x +20}}{2\pi} +\hbar \sum y\partial y$").
(** The expression to show after [h]: the text in the editor at the last submission. *)
Definition entered (h : list move) (t : string) : Prop :=
  (exists h1 h2, h = h1 ++ Submit :: h2 /\ ~ In Submit h2 /\ written h1 t) \/
  (~ In Submit h /\ t = "$f(x) = \frac{\sqrt{x +20}}{2\pi} +\hbar \sum y\partial y$").
(** F11 was pressed after the last frame. *)
Definition pending (es : list event) : Prop :=
  exists es1 c es2, es = es1 ++ Key F11 c true :: es2 /\ forall ws s, ~ In (Frame ws s) es2.

(** The moments when a picture is looked at, each with what was done before. *)
Fixpoint looks (h : list move) (ms : list move) : list (list move * move) :=
  match ms with
  | [] => []
  | m :: ms' => match m with LookImg | LookGio => [(h, m)] | _ => [] end ++ looks (h ++ [m]) ms'
  end.

Lemma last_unique {X} (P : X -> Prop) (h1 h1' h2 h2' : list X) x x' : h1 ++ x :: h2 = h1' ++ x' :: h2' ->
  P x -> P x' -> (forall y, In y h2 -> ~ P y) -> (forall y, In y h2' -> ~ P y) -> h1 = h1' /\ x = x' /\ h2 = h2'.
Proof.
  intros E Px Px' N N'. revert h1' E. induction h1 as [|a h1 IH]; intros [|a' h1'] E; cbn [app] in E.
  - injection E as -> ->. auto.
  - injection E as -> ->. destruct (N x'); [apply in_or_app; right; left; reflexivity|exact Px'].
  - injection E as -> <-. destruct (N' x); [apply in_or_app; right; left; reflexivity|exact Px].
  - injection E as -> E. destruct (IH h1' E) as (-> & -> & ->). auto.
Qed.
(** These are functions of the history. *)
Lemma written_unique h t t' : written h t -> written h t' -> t = t'.
Proof.
  intros [(h1 & h2 & E & N)|(N & E)] [(h1' & h2' & E' & N')|(N' & E')]; subst.
  - destruct (last_unique (fun m => exists t, m = Typed t) _ _ _ _ _ _ E') as (_ & Q & _); eauto.
    + intros y I (t0 & ->). exact (N t0 I).
    + intros y I (t0 & ->). exact (N' t0 I).
    + now injection Q.
  - destruct (N' t). apply in_or_app. right. now left.
  - destruct (N t'). apply in_or_app. right. now left.
  - reflexivity.
Qed.
Lemma entered_unique h t t' : entered h t -> entered h t' -> t = t'.
Proof.
  intros [(h1 & h2 & E & N & W)|(N & E)] [(h1' & h2' & E' & N' & W')|(N' & E')]; subst.
  - destruct (last_unique (fun m => m = Submit) _ _ _ _ _ _ E') as (Q & _ & _); auto.
    + intros y I ->. exact (N I).
    + intros y I ->. exact (N' I).
    + subst. exact (written_unique _ _ _ W W').
  - destruct N'. apply in_or_app. right. now left.
  - destruct N. apply in_or_app. right. now left.
  - reflexivity.
Qed.
Lemma written_snoc h m t : written h t -> (forall t', m <> Typed t') -> written (h ++ [m]) t.
Proof.
  intros [(h1 & h2 & E & N)|(N & E)] NT.
  - left. exists h1, (h2 ++ [m]). rewrite E, <- app_assoc. split; [reflexivity|]. intros t' I. apply in_app_or in I as [I|[I|[]]]; [exact (N _ I)|exact (NT _ I)].
  - right. split; [|exact E]. intros t' I. apply in_app_or in I as [I|[I|[]]]; [exact (N _ I)|exact (NT _ I)].
Qed.
Lemma written_typed h t : written (h ++ [Typed t]) t.
Proof. left. exists h, []. split; [reflexivity|]. intros t' []. Qed.
Lemma entered_snoc h m t : entered h t -> m <> Submit -> entered (h ++ [m]) t.
Proof.
  intros [(h1 & h2 & E & N & W)|(N & E)] NT.
  - left. exists h1, (h2 ++ [m]). rewrite E, <- app_assoc. split; [reflexivity|]. split; [|exact W].
    intros I. apply in_app_or in I as [I|[I|[]]]; auto.
  - right. split; [|exact E]. intros I. apply in_app_or in I as [I|[I|[]]]; auto.
Qed.
Lemma entered_submit h t : written h t -> entered (h ++ [Submit]) t.
Proof. intros W. left. exists h, []. split; [reflexivity|]. split; [intros []|exact W]. Qed.
Lemma history_snoc es e : history (es ++ [e]) = history es ++ moves e.
Proof. unfold history. rewrite flat_map_app. cbn. now rewrite app_nil_r. Qed.
Lemma pending_other es e : (forall ws s, e <> Frame ws s) -> (forall c, e <> Key F11 c true) -> pending (es ++ [e]) <-> pending es.
Proof.
  intros N1 N2. split.
  - intros (es1 & c & es2 & E & N). destruct es2 as [|a es2 _] using rev_ind.
    + apply app_inj_tail in E as [_ E]. now destruct (N2 c).
    + rewrite app_comm_cons, app_assoc in E. apply app_inj_tail in E as [E _]. exists es1, c, es2. split; [exact E|].
      intros ws s I. apply (N ws s). apply in_or_app. now left.
  - intros (es1 & c & es2 & E & N). exists es1, c, (es2 ++ [e]). rewrite E, <- app_assoc. split; [reflexivity|].
    intros ws s I. apply in_app_or in I as [I|[I|[]]]; [exact (N _ _ I)|exact (N1 _ _ I)].
Qed.
Lemma pending_frame es ws s : ~ pending (es ++ [Frame ws s]).
Proof.
  intros (es1 & c & es2 & E & N). destruct es2 as [|a es2 _] using rev_ind.
  - apply app_inj_tail in E as [_ E]. discriminate E.
  - rewrite app_comm_cons, app_assoc in E. apply app_inj_tail in E as [_ E]. subst a. apply (N ws s). apply in_or_app. right. now left.
Qed.
Lemma pending_f11 es c : pending (es ++ [Key F11 c true]).
Proof. exists es, c, []. split; [reflexivity|]. intros ? ? []. Qed.

Section Window.
Context {A : arith} {Fnt : Type}.
Hypothesis ZL : zero_laws (A := A).
Variables (U : Z -> bool) (range : Symbols.gset -> list string) (parse_float : string -> option (Arith.F A)).
Variables (sf : @sfnt A Fnt) (dflt : @fonts Fnt).
Variables (face_ok : option Fnt -> Arith.F A -> Arith.F A -> bool) (png : list (@gg A Fnt) -> list string * option string).
Variables (image : Type) (decode : string -> option image) (blank : image).
Variables (lm liberation : option (@fonts Fnt)) (size : Arith.F A).
Variables (f32 : Type) (to32 : Arith.F A -> f32) (add32 : f32 -> f32 -> f32) (gio_new : lres (f32 * f32)).
Variable sys_create : string -> option string.
Notation ui := (ui image).
Notation sight := (sight image f32).
Notation effect := (effect image f32).
Notation status := (status image).
Notation run := (run U range parse_float sf dflt face_ok png image decode lm liberation size f32 to32 add32 gio_new sys_create (new_ui image blank)).
Notation handle := (handle U range parse_float sf dflt face_ok png image decode lm liberation size f32 to32 add32 gio_new sys_create).
Notation layout := (layout U range parse_float sf dflt face_ok png image decode lm liberation size f32 to32 add32 gio_new).
Notation widget_layout := (widget_layout U range parse_float sf dflt face_ok png image decode lm liberation size f32 to32 add32 gio_new).

(** Rendering [x] for the window, at 256 dots per inch and with the Liberation fonts,
    asks for this drawing. *)
Definition asks (x : string) (c : @dst_call A Fnt) : Prop :=
  exists fl fnts, lm = Some fl /\ liberation = Some fnts /\
    render U range parse_float sf dflt (fun _ => DstNil) x size (fofZ A 256) (Some fnts) = Some ([c], RetNil).
(** The PNG of [x] is written without an error and shows [i]; the encoder refuses [x];
    gio is given the operations [l]. *)
Definition makes (x : string) (i : image) : Prop :=
  exists c cmds ws, asks x c /\ img_render face_ok c = LOk cmds /\ png cmds = (ws, None) /\ decode (String.concat "" ws) = Some i.
Definition refused (x : string) : Prop :=
  exists c cmds ws e, asks x c /\ img_render face_ok c = LOk cmds /\ png cmds = (ws, Some e).
Definition gives (x : string) (l : list (@gop f32)) : Prop :=
  exists c offset, asks x c /\ gio_new = LOk offset /\ l = o_list (gio_render f32 to32 add32 offset c (mk_gops [] 0)).

(** The image seen at a look after [h]: that of the expression entered, or, if it was
    refused, the one of the look before; at first a blank. *)
Inductive seen : list move -> image -> Prop :=
  | seen_new h x i : entered h x -> makes x i -> seen h i
  | seen_first h x : entered h x -> refused x -> ~ In LookImg h -> seen h blank
  | seen_again h1 h2 x i : entered (h1 ++ LookImg :: h2) x -> refused x -> ~ In LookImg h2 -> seen h1 i -> seen (h1 ++ LookImg :: h2) i.
Definition saw (l : list move * move) (s : sight) : Prop :=
  match l, s with
  | (h, LookImg), Picture i => seen h i
  | (h, LookGio), Ops o => exists x, entered h x /\ gives x o
  | _, _ => False
  end.
(** No picture can be made at this look. *)
Definition fails (l : list move * move) : Prop :=
  exists x, entered (fst l) x /\
    match snd l with
    | LookImg => ~ (exists i, makes x i) /\ ~ refused x
    | LookGio => ~ (exists o, gives x o)
    | _ => False
    end.

(** The image kept after [h]. *)
Definition kept (h : list move) (i : image) : Prop :=
  (~ In LookImg h /\ i = blank) \/ (exists h1 h2, h = h1 ++ LookImg :: h2 /\ ~ In LookImg h2 /\ seen h1 i).
Lemma kept_snoc h m i : kept h i -> m <> LookImg -> kept (h ++ [m]) i.
Proof.
  intros [(N & E)|(h1 & h2 & E & N & S)] NM.
  - left. split; [|exact E]. intros I. apply in_app_or in I as [I|[I|[]]]; auto.
  - right. exists h1, (h2 ++ [m]). rewrite E, <- app_assoc. split; [reflexivity|]. split; [|exact S].
    intros I. apply in_app_or in I as [I|[I|[]]]; auto.
Qed.
Lemma kept_look h i : seen h i -> kept (h ++ [LookImg]) i.
Proof. intros S. right. exists h, []. split; [reflexivity|]. split; [intros []|exact S]. Qed.
Lemma kept_seen h x i : kept h i -> entered h x -> refused x -> seen h i.
Proof.
  intros [(N & ->)|(h1 & h2 & -> & N & S)] E R.
  - eapply seen_first; eassumption.
  - eapply seen_again; eassumption.
Qed.

Definition state_of (h : list move) (u : ui) : Prop :=
  written h (u_text u) /\ entered h (u_expr u) /\ exists i, u_image u = Some i /\ kept h i.

Lemma img_box_cases u h : state_of h u ->
  match img_box U range parse_float sf dflt face_ok png image decode lm liberation size f32 u with
  | Laid u' l => exists i, l = [Picture i] /\ seen h i /\ state_of (h ++ [LookImg]) u' /\ u_screen u' = u_screen u
  | LaidPanic _ => fails (h, LookImg)
  | LaidStuck => False
  end.
Proof.
  intros (W & E & i0 & EI & K). unfold img_box.
  assert (NOASK : (forall c, ~ asks (u_expr u) c) -> fails (h, LookImg)).
  { intros NA. exists (u_expr u). split; [exact E|]. cbn [snd]. split.
    - intros (i & c & cmds & ws & AS & _). exact (NA _ AS).
    - intros (c & cmds & ws & e & AS & _). exact (NA _ AS). }
  assert (STAY : forall x, state_of (h ++ [LookImg]) (mk_ui (u_text u) (u_expr u) (u_screen u) (Some x)) <-> kept (h ++ [LookImg]) x).
  { intros x. split.
    - intros (_ & _ & i & Q & K'). cbn in Q. injection Q as ->. exact K'.
    - intros K'. split; [apply written_snoc; [exact W|discriminate]|]. split; [apply entered_snoc; [exact E|discriminate]|]. exists x. auto. }
  destruct lm as [fl|] eqn:EL; [|apply NOASK; intros c (? & ? & Q & _); congruence].
  destruct liberation as [fnts|] eqn:EB; [|apply NOASK; intros c (? & ? & _ & Q & _); congruence].
  destruct (render_calls ZL U range parse_float sf dflt (u_expr u) size (fofZ A 256) (Some fnts)) as [(e & R)|(c & R)]; rewrite R.
  - apply NOASK. intros c (? & ? & _ & Q & R'). rewrite EB in Q. injection Q as <-. rewrite R in R'. discriminate R'.
  - assert (AS : asks (u_expr u) c). { exists fl, fnts. rewrite EL, EB. split; [reflexivity|]. split; [reflexivity|]. rewrite R. reflexivity. }
    assert (ASU : forall c', asks (u_expr u) c' -> c' = c).
    { intros c' (? & ? & _ & Q & R'). rewrite EB in Q. injection Q as <-. rewrite R in R'.
      assert (Z : forall (a b : @dst_call A Fnt) u v, Some ([a], u : @outcome) = Some ([b], v) -> b = a) by (intros ? ? ? ? Z; injection Z; auto).
      exact (Z _ _ _ _ R'). }
    cbn [buffer_dst]. unfold buffer_dst at 1. destruct (img_render face_ok c) as [cmds|e] eqn:IR.
    + destruct (png cmds) as [ws [e|]] eqn:PN; cbn [snd ret_of].
      * assert (RF : refused (u_expr u)) by (exists c, cmds, ws, e; auto).
        unfold show_image. rewrite EI. exists i0. split; [reflexivity|].
        pose proof (kept_seen _ _ _ K E RF) as S. split; [exact S|]. split; [|reflexivity].
        split; [apply written_snoc; [exact W|discriminate]|]. split; [apply entered_snoc; [exact E|discriminate]|].
        exists i0. split; [exact EI|]. exact (kept_look _ _ S).
      * cbn [map]. unfold buffer_dst. rewrite IR, PN. cbn [fst].
        change (String.concat "" [String.concat "" ws]) with (String.concat "" ws).
        destruct (decode (String.concat "" ws)) as [i|] eqn:DC; unfold show_image; cbn [u_image].
        -- assert (S : seen h i) by (eapply seen_new; [exact E|]; exists c, cmds, ws; auto).
           exists i. split; [reflexivity|]. split; [exact S|]. split; [|reflexivity]. apply STAY. exact (kept_look _ _ S).
        -- exists (u_expr u). split; [exact E|]. cbn [snd]. split.
           ++ intros (i & c' & cmds' & ws' & AS' & IR' & PN' & DC'). apply ASU in AS' as ->. rewrite IR in IR'. injection IR' as <-.
              rewrite PN in PN'. injection PN' as <-. congruence.
           ++ intros (c' & cmds' & ws' & e & AS' & IR' & PN'). apply ASU in AS' as ->. rewrite IR in IR'. injection IR' as <-. congruence.
    + cbn [snd ret_of]. exists (u_expr u). split; [exact E|]. cbn [snd]. split.
      * intros (i & c' & cmds' & ws' & AS' & IR' & _). apply ASU in AS' as ->. congruence.
      * intros (c' & cmds' & ws' & e' & AS' & IR' & _). apply ASU in AS' as ->. congruence.
Qed.
Lemma gio_box_cases u h : state_of h u ->
  match gio_box U range parse_float sf dflt image lm liberation size f32 to32 add32 gio_new u with
  | Laid u' l => exists o, l = [Ops o] /\ (exists x, entered h x /\ gives x o) /\ state_of (h ++ [LookGio]) u' /\ u_screen u' = u_screen u
  | LaidPanic _ => fails (h, LookGio)
  | LaidStuck => False
  end.
Proof.
  intros (W & E & i0 & EI & K). unfold gio_box.
  assert (NOASK : (forall c, ~ asks (u_expr u) c) -> fails (h, LookGio)).
  { intros NA. exists (u_expr u). split; [exact E|]. cbn [snd]. intros (o & c & off & AS & _). exact (NA _ AS). }
  destruct lm as [fl|] eqn:EL; [|apply NOASK; intros c (? & ? & Q & _); congruence].
  destruct liberation as [fnts|] eqn:EB; [|apply NOASK; intros c (? & ? & _ & Q & _); congruence].
  destruct gio_new as [off|e] eqn:GN.
  2:{ exists (u_expr u). split; [exact E|]. cbn [snd]. intros (o & c & off & _ & Q & _). congruence. }
  destruct (render_calls ZL U range parse_float sf dflt (u_expr u) size (fofZ A 256) (Some fnts)) as [(e & R)|(c & R)]; rewrite R.
  - apply NOASK. intros c (? & ? & _ & Q & R'). rewrite EB in Q. injection Q as <-. rewrite R in R'. discriminate R'.
  - cbn [ret_of fold_left]. eexists. split; [reflexivity|]. split.
    { exists (u_expr u). split; [exact E|]. exists c, off. split; [|auto]. exists fl, fnts. rewrite EL, EB, R. auto. }
    split; [|reflexivity]. split; [apply written_snoc; [exact W|discriminate]|]. split; [apply entered_snoc; [exact E|discriminate]|].
    exists i0. split; [exact EI|]. apply kept_snoc; [exact K|discriminate].
Qed.
Lemma widget_cases w u h : state_of h u ->
  match widget_layout w u with
  | Laid u' l => Forall2 saw (looks h (widget_moves w)) l /\ state_of (h ++ widget_moves w) u' /\ u_screen u' = u_screen u
  | LaidPanic _ => exists l, In l (looks h (widget_moves w)) /\ fails l
  | LaidStuck => False
  end.
Proof.
  intros S. destruct w as [|t|[|n]| |]; cbn [widget_layout widget_moves looks app].
  - rewrite app_nil_r. auto.
  - split; [constructor|]. split; [|reflexivity]. destruct S as (W & E & i & EI & K). split; [apply written_typed|].
    split; [apply entered_snoc; [exact E|discriminate]|]. exists i. split; [exact EI|]. apply kept_snoc; [exact K|discriminate].
  - rewrite app_nil_r. auto.
  - split; [constructor|]. split; [|reflexivity]. destruct S as (W & E & i & EI & K). split; [apply written_snoc; [exact W|discriminate]|].
    split; [apply entered_submit; exact W|]. exists i. split; [exact EI|]. apply kept_snoc; [exact K|discriminate].
  - pose proof (img_box_cases u h S) as C. cbn [Gui.widget_layout]. destruct (img_box _ _ _ _ _ _ _ _ _ _ _ _ _ _) as [u' l|e|]; [| |exact C].
    + destruct C as (i & -> & SE & ST & SC). split; [|auto]. constructor; [exact SE|constructor].
    + eexists. split; [left; reflexivity|exact C].
  - pose proof (gio_box_cases u h S) as C. cbn [Gui.widget_layout]. destruct (gio_box _ _ _ _ _ _ _ _ _ _ _ _ _ _) as [u' l|e|]; [| |exact C].
    + destruct C as (o & -> & SE & ST & SC). split; [|auto]. constructor; [exact SE|constructor].
    + eexists. split; [left; reflexivity|exact C].
Qed.
Lemma looks_app h a b : looks h (a ++ b) = looks h a ++ looks (h ++ a) b.
Proof.
  revert h. induction a as [|m a IH]; intros h; cbn [looks app]; [now rewrite app_nil_r|].
  rewrite IH, <- !app_assoc. reflexivity.
Qed.
Lemma layout_cases ws : forall u h, state_of h u ->
  match layout ws u with
  | Laid u' l => Forall2 saw (looks h (flat_map widget_moves ws)) l /\ state_of (h ++ flat_map widget_moves ws) u' /\ u_screen u' = u_screen u
  | LaidPanic _ => exists l, In l (looks h (flat_map widget_moves ws)) /\ fails l
  | LaidStuck => False
  end.
Proof.
  induction ws as [|w ws IH]; intros u h S; cbn [Gui.layout flat_map].
  - rewrite app_nil_r. split; [constructor|auto].
  - pose proof (widget_cases w u h S) as C. destruct (widget_layout w u) as [u1 l1|e|]; [|..]; [|rewrite looks_app|exact C].
    + destruct C as (F1 & S1 & SC1). pose proof (IH u1 _ S1) as C2. rewrite looks_app.
      destruct (layout ws u1) as [u2 l2|e|]; [| |exact C2].
      * destruct C2 as (F2 & S2 & SC2). split; [now apply Forall2_app|]. rewrite app_assoc. split; [exact S2|congruence].
      * destruct C2 as (l & I & FA). exists l. split; [|exact FA]. apply in_or_app. now right.
    + destruct C as (l & I & FA). exists l. split; [|exact FA]. apply in_or_app. now left.
Qed.

(** ** Runs *)
Lemma run_snoc es e u0 : Gui.run U range parse_float sf dflt face_ok png image decode lm liberation size f32 to32 add32 gio_new sys_create u0 (es ++ [e]) =
  match Gui.run U range parse_float sf dflt face_ok png image decode lm liberation size f32 to32 add32 gio_new sys_create u0 es with
  | (l, Running u) => let '(l', s) := handle u e in (l ++ l', s)
  | r => r
  end.
Proof.
  revert u0. induction es as [|a es IH]; intros u0; cbn [app Gui.run].
  - destruct (handle u0 e) as [l []]; cbn; rewrite ?app_nil_r; reflexivity.
  - destruct (handle u0 a) as [l [u| | |]]; try reflexivity. rewrite IH.
    destruct (Gui.run _ _ _ _ _ _ _ _ _ _ _ _ _ _ _ _ _ u es) as [l2 [u2| | |]]; try reflexivity.
    destruct (handle u2 e) as [l3 s3]. now rewrite app_assoc.
Qed.
Lemma run_state es : forall out u, run es = (out, Running u) ->
  state_of (history es) u /\ (u_screen u = true <-> pending es).
Proof.
  induction es as [|e es IH] using rev_ind; intros out u R.
  - cbn in R. injection R as <- <-. split.
    + split; [right; split; [intros ? []|reflexivity]|]. split; [right; split; [intros []|reflexivity]|].
      exists blank. split; [reflexivity|]. left. split; [intros []|reflexivity].
    + cbn. split; [discriminate|]. intros (es1 & c & es2 & E & _). destruct es1; discriminate E.
  - rewrite run_snoc in R. destruct (run es) as [l [u1| | |]] eqn:R1; try discriminate R.
    destruct (IH _ _ eq_refl) as (S & P). rewrite history_snoc.
    destruct (handle u1 e) as [l' s'] eqn:HD. assert (s' = Running u) by (injection R; auto). subst s'. clear R.
    destruct e as [err|k c p|ws shot|]; cbn [Gui.handle] in HD; cbn [moves].
    + discriminate HD.
    + destruct S as (W & E & i & EI & K). destruct k; [discriminate HD| | | |].
      1,2: destruct c, p; cbn in HD; injection HD as <- <-; cbn [u_screen];
        (split; [|rewrite pending_other by discriminate; exact P]); rewrite ?app_nil_r;
        try (split; [exact W|]; split; [exact E|]; exists i; auto); 
        split; [apply written_snoc; [exact W|discriminate]|]; split; [apply entered_submit; exact W|];
        exists i; split; [exact EI|apply kept_snoc; [exact K|discriminate]].
      * rewrite app_nil_r. destruct p; cbn in HD; injection HD as <- <-; cbn [u_screen u_text u_expr u_image].
        -- split; [split; [exact W|]; split; [exact E|]; exists i; auto|]. split; [intros _; apply pending_f11|reflexivity].
        -- split; [split; [exact W|]; split; [exact E|]; exists i; auto|]. rewrite pending_other by discriminate. exact P.
      * rewrite app_nil_r. cbn in HD. injection HD as <- <-. split; [split; [exact W|]; split; [exact E|]; exists i; auto|].
        rewrite pending_other by discriminate. exact P.
    + pose proof (layout_cases ws u1 (history es) S) as C. destruct (layout ws u1) as [u2 l2|er|]; try discriminate HD.
      destruct C as (_ & S2 & SC). destruct (u_screen u2) eqn:SCR; injection HD as <- <-; cbn [u_screen u_text u_expr u_image].
      * split; [exact S2|]. split; [discriminate|]. intros Q. destruct (pending_frame _ _ _ Q).
      * split; [exact S2|]. rewrite SCR. split; [discriminate|]. intros Q. destruct (pending_frame _ _ _ Q).
    + rewrite app_nil_r. injection HD as <- <-. split; [exact S|]. rewrite pending_other by discriminate. exact P.
Qed.

(** ** C79 *)
(** Every frame shows, at each look, the picture of the expression entered last; or
    Run panics because there is no picture for one of the looks. *)
Theorem C79_frame_generic : forall past out u ws shot, run past = (out, Running u) ->
  let now := looks (history past) (flat_map widget_moves ws) in
  (exists l more u', run (past ++ [Frame ws shot]) = (out ++ Show l :: more, Running u') /\ Forall2 saw now l /\
     ~ exists a, In a now /\ fails a) \/
  (exists e, run (past ++ [Frame ws shot]) = (out, Crashed e) /\ exists a, In a now /\ fails a).
Proof.
  intros past out u ws shot R now. destruct (run_state _ _ _ R) as (S & _).
  rewrite run_snoc, R. cbn [Gui.handle]. pose proof (layout_cases ws u (history past) S) as C. fold now in C.
  destruct (layout ws u) as [u2 l2|e|]; [left|right; exists e; rewrite app_nil_r; auto|destruct C].
  destruct C as (F2 & _ & _).
  assert (NF : ~ exists a, In a now /\ fails a).
  { intros (a & I & x & E & FA). clear -F2 I E FA. induction F2 as [|[h m] s l l' SA F2 IH]; [destruct I|].
    destruct I as [<-|I]; [|auto]. cbn [fst snd] in *. destruct m; try contradiction; destruct s; try contradiction; cbn [saw] in SA.
    - destruct FA as [F1 F3]. inversion SA as [? x0 ? E0 M|? x0 E0 M|? ? x0 ? E0 M]; subst;
        rewrite (entered_unique _ _ _ E0 E) in M; eauto.
    - destruct SA as (x0 & E0 & G). rewrite (entered_unique _ _ _ E0 E) in G. eauto. }
  destruct (u_screen u2); [exists l2, (screenshot image f32 sys_create shot)|exists l2, []]; eexists; split; try reflexivity; auto.
Qed.

(** A subscript or superscript that is typeset crashes the program at the next look. *)
Theorem C79_script_generic : forall past out u ws shot h m x l k p n, fair range -> run past = (out, Running u) ->
  In (h, m) (looks (history past) (flat_map widget_moves ws)) -> entered h x ->
  parse_expr U x = Ok l -> reach true false (NList l) k (NSub p n) \/ reach true false (NList l) k (NSup p n) ->
  exists e, run (past ++ [Frame ws shot]) = (out, Crashed e).
Proof.
  intros past out u ws shot h m x l k p n FR R I E PX RE.
  assert (LK : m = LookImg \/ m = LookGio).
  { clear -I. revert I. generalize (history past) as h0. induction (flat_map widget_moves ws) as [|a ms IH]; intros h0 I; [destruct I|].
    cbn [looks] in I. apply in_app_or in I as [I|I]; [|exact (IH _ I)].
    destruct a; cbn [In] in I; [destruct I|destruct I|destruct I as [I|[]]|destruct I as [I|[]]]; injection I as _ <-; auto. }
  assert (NA : forall c, ~ asks x c).
  { intros c (fl & fnts & _ & _ & RN). unfold render in RN.
    destruct (C40_scripts_panic A _ U range (ttf_backend sf fnts) parse_float x size (fofZ A 72) (new_ttf new_canvas) l k p n FR PX RE) as (e & EP).
    rewrite EP in RN. discriminate RN. }
  destruct (C79_frame_generic past out u ws shot R) as [(l0 & more & u' & _ & _ & NF)|(e & RC & _)]; [|eauto].
  destruct NF. exists (h, m). split; [exact I|]. exists x. split; [exact E|]. cbn [snd]. destruct LK as [->| ->].
  - split; [intros (i & c & cm & w & AS & _)|intros (c & cm & w & e & AS & _)]; exact (NA _ AS).
  - intros (o & c & off & AS & _). exact (NA _ AS).
Qed.

(** ** C80 *)
Definition stops (e : event) (err : option string) : Prop :=
  e = Destroy err \/ (err = None /\ exists c p, e = Key Escape c p).
(** Run returns at the first destroy event or Escape key, and at no other event. *)
Theorem C80_end_generic : forall es out err, run es = (out, Returned err) <->
  exists past e future u, es = past ++ e :: future /\ run past = (out, Running u) /\ stops e err.
Proof.
  intros es out err. induction es as [|e es IH] using rev_ind.
  - split; [discriminate|]. intros (past & e & future & u & E & _). destruct past; discriminate E.
  - rewrite run_snoc. split.
    + destruct (run es) as [l [u| err'| |]] eqn:R; try discriminate.
      * intros H. exists es, e, [], u. destruct (handle u e) as [l' s] eqn:HD. injection H as <- ->.
        assert (Q : l' = [] /\ stops e err).
        { destruct e as [er|k c p|ws shot|]; cbn [Gui.handle] in HD.
          - injection HD as <- <-. split; [reflexivity|]. now left.
          - destruct k.
            + injection HD as <- <-. split; [reflexivity|]. right. eauto.
            + destruct (c && p); discriminate HD.
            + destruct (c && p); discriminate HD.
            + destruct p; discriminate HD.
            + discriminate HD.
          - destruct (layout ws u) as [u2 l2| |]; try discriminate HD. destruct (u_screen u2); discriminate HD.
          - discriminate HD. }
        destruct Q as [-> ST]. rewrite app_nil_r. auto.
      * intros H. injection H as -> ->. destruct IH as [IH _]. destruct (IH eq_refl) as (past & e' & future & u & E & RP & ST).
        exists past, e', (future ++ [e]), u. rewrite E, <- app_assoc. auto.
    + intros (past & e' & future & u & E & RP & ST). destruct future as [|a future _] using rev_ind.
      * apply app_inj_tail in E as [<- <-]. rewrite RP. destruct ST as [->|(-> & c & p & ->)]; cbn; now rewrite app_nil_r.
      * rewrite app_comm_cons, app_assoc in E. apply app_inj_tail in E as [E _].
        destruct IH as [_ IH]. rewrite IH; [reflexivity|]. exists past, e', future, u. auto.
Qed.
(** The process exits with status 0 if the window was closed without an error or with
    Escape, with status 1 if it was closed with an error; it dies of a panic exactly
    in a crash (C79), and goes on otherwise. *)
Theorem C80_status_generic : forall es out s, run es = (out, s) ->
  (forall c, gui_exit image s = Some (Exit c) <->
    exists past e future u err, es = past ++ e :: future /\ run past = (out, Running u) /\ stops e err /\
      c = match err with None => 0 | Some _ => 1 end) /\
  (forall e, gui_exit image s = Some (Panic e) <-> s = Crashed e) /\
  (gui_exit image s = None <-> exists u, s = Running u).
Proof.
  intros es out s R. split; [|split].
  - intros c. split.
    + destruct s as [u|err|e|]; cbn [gui_exit]; try discriminate. intros E. destruct (proj1 (C80_end_generic es out err) R) as (past & e & future & u & H1 & H2 & H3).
      exists past, e, future, u, err. repeat split; try assumption. destruct err; now injection E as <-.
    + intros (past & e & future & u & err & H1 & H2 & H3 & ->).
      assert (Q : run es = (out, Returned err)) by (apply C80_end_generic; exists past, e, future, u; auto).
      rewrite R in Q. assert (S : s = Returned err) by congruence. subst s. destruct err; reflexivity.
  - intros e. destruct s as [u|[err|]|e'|]; cbn [gui_exit]; split; intros H; congruence.
  - destruct s as [u|[err|]|e'|]; cbn [gui_exit]; split; intros H; try discriminate H; try (destruct H as (v & H); discriminate H); eauto.
Qed.
(** Nothing is shown or written once it has ended. *)
Theorem C80_ended_generic : forall es more out s, run es = (out, s) -> (forall u, s <> Running u) -> run (es ++ more) = (out, s).
Proof.
  intros es more out s R N. induction more as [|e more IH] using rev_ind; [now rewrite app_nil_r|].
  rewrite app_assoc, run_snoc, IH. destruct s; try reflexivity. now destruct (N u).
Qed.
(** The files it writes: only ooo.png, once for every frame that is the first since F11
    was pressed (if the screenshot can be taken and the file created). *)
Definition file_actions (l : list effect) : list action := flat_map (fun e => match e with File a => [a] | _ => [] end) l.
Definition shot_actions (shot : option (list string)) : list action :=
  match shot, sys_create "ooo.png" with
  | Some ws, None => Create "ooo.png" :: map (Write "ooo.png") ws
  | _, _ => []
  end.
Lemma file_actions_app a b : file_actions (a ++ b) = file_actions a ++ file_actions b.
Proof. apply flat_map_app. Qed.
Lemma file_actions_shot shot : file_actions (screenshot image f32 sys_create shot) = shot_actions shot.
Proof.
  unfold screenshot, shot_actions. destruct shot as [ws|]; [|reflexivity]. destruct (sys_create "ooo.png"); [reflexivity|].
  cbn [map file_actions flat_map app]. f_equal. induction ws as [|w ws IH]; [reflexivity|]. cbn. f_equal. exact IH.
Qed.
Theorem C80_screenshot_generic : forall past out u e out' s, run past = (out, Running u) -> run (past ++ [e]) = (out', s) ->
  exists l, out' = out ++ l /\
  ((file_actions l = [] /\ forall ws shot, e = Frame ws shot -> pending past -> exists er, s = Crashed er) \/
   (exists ws shot, e = Frame ws shot /\ pending past /\ file_actions l = shot_actions shot)).
Proof.
  intros past out u e out' s R R'. destruct (run_state _ _ _ R) as (S & P). rewrite run_snoc, R in R'.
  destruct (handle u e) as [l s'] eqn:HD. injection R' as <- <-. exists l. split; [reflexivity|].
  destruct e as [err|k c p|ws shot|]; cbn [Gui.handle] in HD.
  - injection HD as <- <-. left. split; [reflexivity|discriminate].
  - left. split; [|discriminate]. destruct k; [|destruct (c && p)|destruct (c && p)|destruct p|]; injection HD as <- <-; reflexivity.
  - pose proof (layout_cases ws u (history past) S) as C. destruct (layout ws u) as [u2 l2|er|]; [| |destruct C].
    + destruct C as (_ & _ & SC). rewrite SC in HD. destruct (u_screen u).
      * injection HD as <- <-. right. exists ws, shot. split; [reflexivity|]. split; [now apply P|].
        cbn [file_actions flat_map app]. apply file_actions_shot.
      * injection HD as <- <-. left. split; [reflexivity|]. intros ? ? _ Q. apply P in Q. discriminate Q.
    + injection HD as <- <-. left. split; [reflexivity|]. eauto.
  - injection HD as <- <-. left. split; [reflexivity|discriminate].
Qed.
Theorem C80_files_generic : forall es out s, run es = (out, s) ->
  (forall fs q, q <> "ooo.png" -> do_actions (file_actions out) fs q = fs q) /\
  ((forall c, ~ In (Key F11 c true) es) -> file_actions out = []).
Proof.
  induction es as [|e es IH] using rev_ind; intros out s R.
  - cbn in R. injection R as <- <-. split; reflexivity.
  - destruct (run es) as [l0 s0] eqn:R0. destruct (IH _ _ eq_refl) as (I1 & I2).
    assert (I2' : (forall c, ~ In (Key F11 c true) (es ++ [e])) -> file_actions l0 = []).
    { intros N. apply I2. intros c I. apply (N c). apply in_or_app. now left. }
    assert (STOP : (forall u, s0 <> Running u) -> out = l0).
    { intros N. rewrite (C80_ended_generic _ [e] _ _ R0 N) in R. now injection R. }
    destruct s0 as [u| | |]; try (rewrite STOP by discriminate; auto).
    destruct (C80_screenshot_generic _ _ _ _ _ _ R0 R) as (l & -> & C). rewrite file_actions_app.
    destruct C as [(-> & _)|(ws & shot & -> & PE & ->)].
    + rewrite app_nil_r. auto.
    + split.
      * intros fs q N. rewrite do_actions_app. unfold shot_actions. destruct shot as [w|]; [|cbn; auto].
        destruct (sys_create "ooo.png"); [cbn; auto|]. rewrite do_file_other by exact N. auto.
      * intros N. destruct PE as (es1 & c & es2 & E & _). destruct (N c). apply in_or_app. left. rewrite E. apply in_or_app. right. now left.
Qed.
End Window.

(** ** For float64 *)
Section Float.
Variables (Fnt : Type) (U : Z -> bool) (range : Symbols.gset -> list string) (pf : string -> option (Arith.F float64)).
Variables (sf : @sfnt float64 Fnt) (dflt : @fonts Fnt).
Variables (face_ok : option Fnt -> Arith.F float64 -> Arith.F float64 -> bool) (png : list (@gg float64 Fnt) -> list string * option string).
Variables (image : Type) (decode : string -> option image) (blank : image).
Variables (lm liberation : option (@fonts Fnt)) (size : Arith.F float64).
Variables (f32 : Type) (to32 : Arith.F float64 -> f32) (add32 : f32 -> f32 -> f32) (gio_new : lres (f32 * f32)).
Variable sys_create : string -> option string.
Notation run := (run U range pf sf dflt face_ok png image decode lm liberation size f32 to32 add32 gio_new sys_create (new_ui image blank)).
Notation saw := (saw U range pf sf dflt face_ok png image decode blank lm liberation size f32 to32 add32 gio_new).
Notation fails := (fails U range pf sf dflt face_ok png image decode lm liberation size f32 to32 add32 gio_new).
Corollary C79_frame : forall past out u ws shot, run past = (out, Running u) ->
  let now := looks (history past) (flat_map widget_moves ws) in
  (exists l more u', run (past ++ [Frame ws shot]) = (out ++ Show l :: more, Running u') /\ Forall2 saw now l /\
     ~ exists a, In a now /\ fails a) \/
  (exists e, run (past ++ [Frame ws shot]) = (out, Crashed e) /\ exists a, In a now /\ fails a).
Proof. exact (C79_frame_generic float64_zero U range pf sf dflt face_ok png image decode blank lm liberation size f32 to32 add32 gio_new sys_create). Qed.
Corollary C79_script : forall past out u ws shot h m x l k p n, fair range -> run past = (out, Running u) ->
  In (h, m) (looks (history past) (flat_map widget_moves ws)) -> entered h x ->
  parse_expr U x = Ok l -> reach true false (NList l) k (NSub p n) \/ reach true false (NList l) k (NSup p n) ->
  exists e, run (past ++ [Frame ws shot]) = (out, Crashed e).
Proof. exact (C79_script_generic float64_zero U range pf sf dflt face_ok png image decode blank lm liberation size f32 to32 add32 gio_new sys_create). Qed.
Corollary C80_end : forall es out err, run es = (out, Returned err) <->
  exists past e future u, es = past ++ e :: future /\ run past = (out, Running u) /\ stops e err.
Proof. exact (C80_end_generic U range pf sf dflt face_ok png image decode blank lm liberation size f32 to32 add32 gio_new sys_create). Qed.
Corollary C80_status : forall es out s, run es = (out, s) ->
  (forall c, gui_exit image s = Some (Exit c) <->
    exists past e future u err, es = past ++ e :: future /\ run past = (out, Running u) /\ stops e err /\
      c = match err with None => 0 | Some _ => 1 end) /\
  (forall e, gui_exit image s = Some (Panic e) <-> s = Crashed e) /\
  (gui_exit image s = None <-> exists u, s = Running u).
Proof. exact (C80_status_generic U range pf sf dflt face_ok png image decode blank lm liberation size f32 to32 add32 gio_new sys_create). Qed.
Corollary C80_ended : forall es more out s, run es = (out, s) -> (forall u, s <> Running u) -> run (es ++ more) = (out, s).
Proof. exact (C80_ended_generic U range pf sf dflt face_ok png image decode blank lm liberation size f32 to32 add32 gio_new sys_create). Qed.
Corollary C80_screenshot : forall past out u e out' s, run past = (out, Running u) -> run (past ++ [e]) = (out', s) ->
  exists l, out' = out ++ l /\
  ((file_actions image f32 l = [] /\ forall ws shot, e = Frame ws shot -> pending past -> exists er, s = Crashed er) \/
   (exists ws shot, e = Frame ws shot /\ pending past /\ file_actions image f32 l = shot_actions sys_create shot)).
Proof. exact (C80_screenshot_generic float64_zero U range pf sf dflt face_ok png image decode blank lm liberation size f32 to32 add32 gio_new sys_create). Qed.
Corollary C80_files : forall es out s, run es = (out, s) ->
  (forall fs q, q <> "ooo.png" -> do_actions (file_actions image f32 out) fs q = fs q) /\
  ((forall c, ~ In (Key F11 c true) es) -> file_actions image f32 out = []).
Proof. exact (C80_files_generic float64_zero U range pf sf dflt face_ok png image decode blank lm liberation size f32 to32 add32 gio_new sys_create). Qed.
End Float.

(** ** Cases *)
(** An encoder that refuses drawings without ink; an image is its number of bytes. *)
Definition toy_png2 (cmds : list (@gg exact unit)) : list string * option string :=
  let n := List.length cmds in
  (map (fun _ => "x") cmds, if Nat.ltb n 4 then Some "no size" else None).
Definition toy_run : list event -> list (effect nat unit) * status nat :=
  run (A := exact) ascii_only id_range toy_pf (toy exact) toy_fonts (fun _ _ _ => true) toy_png2 nat
    (fun s => Some (String.length s)) (Some toy_fonts) (Some toy_fonts) (Fin (Q2Qc 16)) unit (fun _ => tt) (fun _ _ => tt) (LOk (tt, tt))
    (fun _ => None) (new_ui nat 0%nat).
Definition summary (r : list (effect nat unit) * status nat) : list (list nat + action) * option (option string) :=
  (flat_map (fun e => match e with
     | Show l => [inl (map (fun s => match s with Picture i => i | Ops o => (1000 + List.length o)%nat end) l)]
     | File a => [inr a] | Redraw => [] end) (fst r),
   match snd r with Running _ => None | Returned e => Some e | Crashed e => Some (Some e) | Stuck => None end).
Definition session : list event :=
  [Frame [EditorBox "$x$"; RenderButton 0; Label] None;
   Key Enter true true; Key F11 false true; Key F11 false false;
   Frame [ImgBox; GioBox] (Some ["shot"]);
   Frame [EditorBox ""; RenderButton 2; ImgBox; GioBox] (Some ["shot"]);
   Key Return true false;
   Frame [EditorBox "$x^2$"; ImgBox] None; Key Return true true].
(** "$x$" is shown; the empty expression leaves it there. *)
Example C79_case : summary (toy_run session) =
  ([inl []; inl [5%nat; 1004%nat]; inr (Create "ooo.png"); inr (Write "ooo.png" "shot"); inl [5%nat; 1000%nat]; inl [5%nat]], None).
Proof. vm_compute. reflexivity. Qed.
Example C79_crash_case : snd (summary (toy_run (session ++ [Frame [ImgBox] None; Key Escape false true]))) = Some (Some "unknown ast node").
Proof. vm_compute. reflexivity. Qed.
Example C80_case : snd (summary (toy_run (session ++ [Key Escape false false; Frame [ImgBox] None]))) = Some None.
Proof. vm_compute. reflexivity. Qed.
Example C79_entered_case : entered (history session) "$x^2$".
Proof.
  left. exists [Typed "$x$"; Submit; LookImg; LookGio; Typed ""; Submit; LookImg; LookGio; Typed "$x^2$"; LookImg], []. split; [reflexivity|].
  split; [intros []|]. left. exists [Typed "$x$"; Submit; LookImg; LookGio; Typed ""; Submit; LookImg; LookGio], [LookImg]. split; [reflexivity|].
  intros t [I|[]]. discriminate I.
Qed.
Print Assumptions C79_frame. Print Assumptions C80_files.
