(** C47, C56-C59: rendering an expression with the TrueType backend. *)
From Coq Require Import ZArith String Ascii List Bool Lia QArith Qcanon Lqa Floats Reals.
From Flocq Require Import IEEE754.BinarySingleNaN IEEE754.PrimFloat.
From Verif Require Import Utf8 Utf8Facts Token Ast Parser Symbols PropSymbols Arith Exact OrderLaws Box Ship ShipSpec ShipFacts ShipFacts2 PropShip
  ExactFacts Mtex MtexFacts MtexFacts2 MtexHoare PropMtex Ttf TtfSpec TtfFacts PropTtf Render RenderFacts.
Import ListNotations.
Local Open Scope string_scope.
Local Open Scope list_scope.
Local Open Scope Z_scope.

(** ** Specification *)

(** A drawing call as a request to the backend. *)
Definition request_of {A} (e : @Ship.event A) : @request A :=
  match e with
  | EGlyph x y ft sym dpi => RGlyph x y ft sym dpi
  | ERect x1 y1 x2 y2 => RRect x1 y1 x2 y2
  end.

(** Go's == on fonts. *)
Definition same_font {A : arith} (f g : @Box.font A) : Prop :=
  f_name f = f_name g /\ f_type f = f_type g /\ feqb A (f_size f) (f_size g) = true.

(** The canvas operation [o] carries out the drawing call [e]: it is at the same
    place, and a glyph is that of the symbol, in text or math mode, in that font,
    with the metrics a fresh backend gives for it. *)
Definition carries_out {A : arith} {Fnt} (sf : @sfnt A Fnt) (fnts : @fonts Fnt) (e : @Ship.event A) (o : @op A Fnt) : Prop :=
  match e with
  | ERect x1 y1 x2 y2 => o = RectOp x1 y1 x2 y2
  | EGlyph x y ft sym dpi => exists g, o = GlyphOp x y g /\
      (feqb A (f_size ft) (f_size ft) = true -> feqb A dpi dpi = true ->
       exists ft' dpi' math r, same_font ft ft' /\ feqb A dpi dpi' = true /\
         index sym math = Some r /\ gl_sym g = encode_rune r /\ gl_size g = f_size ft' /\
         forall k, fst (metrics_of sf fnts sym ft' dpi' math (new_ttf k)) = LOk (gl_met g))
  end.

(** The arguments Render gives to the renderer for a box and a drawing. *)
Definition dst_args {A : arith} {Fnt} (b : @Box.box A) (dpi : Arith.F A) (ops : list (@op A Fnt)) : @dst_call A Fnt :=
  mk_dst (fdiv A (b_width b) (fofZ A 72)) (fdiv A (fceil A (fadd A (b_height b) (fmax A (b_depth b) f0))) (fofZ A 72)) dpi ops.

(** ** Lemmas *)
Lemma glyph_val_facts {A : arith} {Fnt} (sf : @sfnt A Fnt) fnts sym ft dpi m v :
  glyph_val sf fnts sym ft dpi m = LOk v -> v_size v = f_size ft /\ index sym m = Some (v_rune v).
Proof.
  unfold glyph_val, get_glyph. intros H.
  destruct (index sym m) as [r|]; cbn [need lbind] in H; [|discriminate H].
  destruct (get_font _ _) as [f|]; cbn [need lbind] in H; [|discriminate H].
  destruct (sf_name sf f); cbn [need lbind] in H; [|discriminate H].
  destruct (sf_index sf f r); cbn [need lbind] in H; [|discriminate H].
  destruct (sf_gname sf f _); cbn [need lbind] in H; [|discriminate H].
  destruct (sf_load sf f _ _); cbn [need lbind] in H; [|discriminate H].
  destruct (sf_advance sf f _ _); cbn [need lbind] in H; [|discriminate H].
  destruct (sf_load sf f _ (sf_upem sf f)); cbn [need lbind] in H; [|discriminate H].
  destruct (sf_bounds sf f _ _) as [[[[a b] c] d]|]; cbn [need lbind] in H; [|discriminate H].
  injection H as <-. split; reflexivity.
Qed.

Lemma key_eqb_same {A : arith} (sym : string) (ft ft' : @Box.font A) dpi dpi' :
  key_eqb (mk_key sym ft dpi) (mk_key sym ft' dpi') = true -> same_font ft ft' /\ feqb A dpi dpi' = true.
Proof.
  unfold key_eqb, font_eqb, same_font. cbn [k_sym k_font k_dpi]. rewrite !andb_true_iff, !String.eqb_eq. tauto.
Qed.
Lemma key_eqb_num {A : arith} (sym : string) (ft : @Box.font A) dpi :
  key_eqb (mk_key sym ft dpi) (mk_key sym ft dpi) = feqb A (f_size ft) (f_size ft) && feqb A dpi dpi.
Proof. unfold key_eqb, font_eqb. cbn [k_sym k_font k_dpi]. now rewrite !String.eqb_refl. Qed.

Lemma shown_carries {A : arith} {Fnt} (EL : eq_laws A) (sf : @sfnt A Fnt) fnts G s e o :
  shown sf fnts G s e o -> carries_out sf fnts e o.
Proof.
  destruct e as [x y ft sym dpi|]; cbn [shown carries_out]; [|auto].
  intros (v & -> & L & _). exists (glyph_of v). split; [reflexivity|]. intros N1 N2.
  unfold looked in L. rewrite key_eqb_num, N1, N2 in L. cbn [andb k_sym] in L.
  destruct L as (ft' & dpi' & m & K & _ & V). pose proof (key_eqb_same _ _ _ _ _ K) as [SF SD].
  destruct (glyph_val_facts _ _ _ _ _ _ _ V) as [Ez Er].
  exists ft', dpi', m, (v_rune v). split; [exact SF|]. split; [exact SD|]. split; [exact Er|]. split; [reflexivity|]. split; [exact Ez|].
  intros k. rewrite metrics_fresh, V.
  assert (R : key_eqb (mk_key sym ft' dpi') (mk_key sym ft' dpi') = true).
  { apply (key_refl_of EL _ (mk_key sym ft dpi)). apply (key_eqb_sym EL). exact K. }
  rewrite R. reflexivity.
Qed.

(** What the layout leaves behind. *)
Lemma parse_left {A : arith} {Fnt} (EL : eq_laws A) U range parse_float (sf : @sfnt A Fnt) fnts x size dpi t err s (G : bool -> Prop) :
  G true -> (G false \/ exists l, parse_expr U x = Ok l /\ Forall (fun n => is_math n = true) l) ->
  mtex_parse U range (ttf_backend sf fnts) parse_float x size dpi (new_ttf new_canvas) = Some (LOk ((t, err), s)) ->
  clean sf fnts G s /\ tq (measured sf fnts G dpi) s t.
Proof.
  intros Gt HG H. unfold mtex_parse in H. destruct (parse_expr U x) as [l|e|] eqn:P; [|discriminate H|discriminate H].
  injection H as H. apply bind_ok in H as (t1 & s1 & H & R). apply ret_ok in R as [[= -> ->] ->].
  assert (HG' : G false \/ Forall (fun n => is_math n = true) l).
  { destruct HG as [HG|(l' & [= <-] & HG)]; auto. }
  pose proof (typeset_hoare range (ttf_backend sf fnts) parse_float x (clean sf fnts G) ext G (fun st => st_dpi st = dpi)
    (measured sf fnts G dpi) (layout_rules EL sf fnts G dpi Gt) l size dpi (new_ttf new_canvas) t1 s1 HG' eq_refl) as T.
  assert (C0 : clean sf fnts G (new_ttf new_canvas)) by (split; [intros k v []|reflexivity]).
  destruct (T C0 H) as (C & _ & Q). split; assumption.
Qed.

Lemma drawable_dec {A : arith} {Fnt} (sf : @sfnt A Fnt) fnts s e : {drawable sf fnts s e} + {~ drawable sf fnts s e}.
Proof.
  destruct e as [x y ft sym dpi|]; cbn [drawable]; [|left; exact I].
  destruct (find (mk_key sym ft dpi) (t_glyphs s)) as [v|]; [left; left; eauto|].
  destruct (glyph_val sf fnts sym ft dpi true) as [v|e] eqn:E; [left; right; eauto|].
  right. intros [(v & H)|(v & H)]; discriminate H.
Qed.

Lemma undrawn {A : arith} {Fnt} (EL : eq_laws A) (sf : @sfnt A Fnt) fnts es s s' e :
  draw_all sf fnts es s = (LPanic e, s') ->
  exists x y ft sym d, In (EGlyph x y ft sym d) es /\ exists er, glyph_val sf fnts sym ft d true = LPanic er.
Proof.
  intros E. destruct (Forall_dec _ (drawable_dec sf fnts s) es) as [DA|DA].
  - destruct (draw_all_runs EL sf fnts es s DA) as (s2 & E2). rewrite E in E2. discriminate E2.
  - assert (DN : exists e, In e es /\ ~ drawable sf fnts s e).
    { clear -DA. induction es as [|e es IH]; [destruct DA; constructor|].
      destruct (drawable_dec sf fnts s e) as [D|D]; [|exists e; split; [now left|exact D]].
      destruct IH as (e' & I & N); [intros F; apply DA; constructor; assumption|]. exists e'. split; [now right|exact N]. }
    destruct DN as (e0 & I & N). destruct e0 as [x0 y0 ft sym d|]; [|destruct N; exact Logic.I].
    exists x0, y0, ft, sym, d. split; [exact I|]. destruct (glyph_val sf fnts sym ft d true) as [v|er] eqn:V; [|eauto].
    exfalso. apply N. right. eauto.
Qed.

Section Thms.
Context {A : arith} {Fnt : Type}.
Hypothesis EL : eq_laws A.
Hypothesis ZL : zero_laws (A := A).
Variable U : Z -> bool.
Variable range : Symbols.gset -> list string.
Variable parse_float : string -> option (Arith.F A).
Variable sf : @sfnt A Fnt.
Variable dflt : @fonts Fnt.
Notation render := (render U range parse_float sf dflt).
Definition chosen (o : option (@fonts Fnt)) : @fonts Fnt := match o with None => dflt | Some f => f end.
Notation layout fnts x size := (mtex_parse U range (ttf_backend sf (chosen fnts)) parse_float x size (fofZ A 72) (new_ttf new_canvas)).

Lemma ship_parsed fnts x size t err s : layout fnts x size = Some (LOk ((t, err), s)) ->
  err = None /\ exists b gs l, t = TL KHList b f0 gs l /\
  let es := draws f0 (fadd A f0 (b_height b)) false b t f0 f0 in
  (exists t' st, ship_call f0 f0 t = LOk (t', st) /\ s_out st = es /\ t_box t' = b /\
                 t_width t' = b_width b /\ t_height t' = b_height b /\ t_depth t' = b_depth b) /\
  glyphs es = chars t.
Proof.
  intros H.
  destruct (C39_outcome A _ U range (ttf_backend sf (chosen fnts)) parse_float x size (fofZ A 72) (new_ttf new_canvas))
    as [(t0 & s0 & b & gs & l & E & ->)|(e & E)]; rewrite H in E; [|discriminate E].
  injection E as -> -> ->. split; [reflexivity|]. exists b, gs, l. split; [reflexivity|]. cbn zeta.
  assert (B : built (ttf_backend sf (chosen fnts)) (TL KHList b f0 gs l)) by (eapply C52_built; exact H).
  destruct (C36_built_never_panics_generic ZL _ _ _ B (ex_intro _ _ (ex_intro _ _ (ex_intro _ _ (ex_intro _ _ (ex_intro _ _ eq_refl))))) f0 f0)
    as (t' & st & E). pose proof (ship_ok_inv _ _ _ _ _ _ _ _ _ E) as (NS & -> & ->).
  split; [eexists _, _; split; [exact E|]; repeat split|].
  apply glyphs_draws. exact NS.
Qed.

(** ** C47 *)
Theorem C47_render_generic : forall dst x size dpi fnts,
  (exists e, layout fnts x size = Some (LPanic e) /\ render dst x size dpi fnts = Some ([], Panics e)) \/
  (exists b gs l s, let t := TL KHList b f0 gs l in
     layout fnts x size = Some (LOk ((t, None), s)) /\
     let es := draws f0 (fadd A f0 (b_height b)) false b t f0 f0 in
     ((exists e, render dst x size dpi fnts = Some ([], Panics e)) /\
      (exists x y ft sym d, In (EGlyph x y ft sym d) es /\
         forall k, exists e, fst (perform sf (chosen fnts) (RGlyph x y ft sym d) (new_ttf k)) = LPanic e))
     \/
     exists ops, Forall2 (carries_out sf (chosen fnts)) es ops /\
       render dst x size dpi fnts = Some ([dst_args b dpi ops], ret_of (dst (dst_args b dpi ops)))).
Proof.
  intros. unfold Render.render. fold (chosen fnts).
  destruct (layout fnts x size) as [[[[t err] s]|e]|] eqn:L.
  - right. destruct (ship_parsed fnts x size t err s L) as (-> & b & gs & l & -> & (t' & st & SC & SO & TB & W & HH & D) & GC).
    exists b, gs, l, s. split; [reflexivity|].
    rewrite SC, SO, W, HH, D.
    destruct (parse_left EL _ _ _ _ _ _ _ _ _ _ _ (fun _ => True) Logic.I (or_introl Logic.I) L) as [(SN & CN) _].
    set (es := draws _ _ _ _ _ _ _) in *.
    destruct (draw_all sf (chosen fnts) es s) as [[[]|e] s'] eqn:E.
    + right.
      destruct (draw_all_ok EL sf (chosen fnts) (fun _ => True) es s s' Logic.I SN E) as (_ & _ & ops & C & F2).
      rewrite CN in C. cbn [app new_canvas] in C. exists ops. split.
      * clear -F2 EL. induction F2; constructor; [eapply shown_carries; eassumption|assumption].
      * unfold cnv_ops, dst_args. rewrite C. reflexivity.
    + left. split; [eauto|].
      destruct (undrawn EL sf (chosen fnts) es s s' e E) as (x0 & y0 & ft & sym & d & I & V).
      exists x0, y0, ft, sym, d. split; [exact I|]. intros k. rewrite drawn_fresh. destruct V as (er & ->). eauto.
  - left. eauto.
  - exfalso. destruct (C39_outcome A _ U range (ttf_backend sf (chosen fnts)) parse_float x size (fofZ A 72) (new_ttf new_canvas))
      as [(? & ? & ? & ? & ? & E & _)|(e & E)]; rewrite E in L; discriminate L.
Qed.

(** The outcome of Render is decided by its renderer: the renderer's error is
    returned (wrapped), its panic is not recovered, and nil is returned only if it
    returned nil. *)
Definition passed_on (r : dst_result) (o : outcome) : Prop :=
  match r, o with
  | DstNil, RetNil => True
  | DstErr e, RetErr m => m = ("could not render math expression: " ++ e)%string
  | DstPanic e, Panics e' => e' = e
  | _, _ => False
  end.
Theorem C47_error_generic : forall dst x size dpi fnts calls out,
  render dst x size dpi fnts = Some (calls, out) ->
  (calls = [] /\ exists e, out = Panics e) \/ (exists c, calls = [c] /\ passed_on (dst c) out).
Proof.
  intros * R. destruct (C47_render_generic dst x size dpi fnts) as [(er & _ & R')|(b & gs & k & s & _ & [((er & R') & _)|(ops & _ & R')])]; rewrite R in R'.
  1,2: left; split; [|exists er]; inversion R'; reflexivity.
  right. assert (Q : calls = [dst_args b dpi ops] /\ out = ret_of (dst (dst_args b dpi ops))) by (inversion R'; split; reflexivity).
  destruct Q as [-> ->]. eexists. split; [reflexivity|]. destruct (dst _); reflexivity.
Qed.

(** The resolution given to Render is only passed on: layout and drawing do not
    depend on it. *)
Definition at_dpi (d : Arith.F A) (c : @dst_call A Fnt) : @dst_call A Fnt := mk_dst (d_w c) (d_h c) d (d_ops c).
Theorem C47_dpi_generic : forall dst x size dpi fnts,
  (forall dpi', exists e, render dst x size dpi fnts = Some ([], Panics e) /\ render dst x size dpi' fnts = Some ([], Panics e)) \/
  (exists c, forall dpi', render dst x size dpi' fnts = Some ([at_dpi dpi' c], ret_of (dst (at_dpi dpi' c)))).
Proof.
  intros. unfold Render.render. fold (chosen fnts).
  destruct (layout fnts x size) as [[[[t err] s]|e]|] eqn:L; [|left; eauto|].
  - destruct (ship_parsed fnts x size t err s L) as (-> & b & gs & l & -> & (t' & st & SC & _) & _).
    rewrite SC. destruct (draw_all sf (chosen fnts) (s_out st) s) as [[[]|e] s']; [right|left; eauto].
    exists (mk_dst (fdiv A (t_width t') (fofZ A 72)) (fdiv A (fceil A (fadd A (t_height t') (fmax A (t_depth t') f0))) (fofZ A 72)) dpi (cnv_ops (t_canvas s'))).
    intros dpi'. reflexivity.
  - exfalso. destruct (C39_outcome A _ U range (ttf_backend sf (chosen fnts)) parse_float x size (fofZ A 72) (new_ttf new_canvas))
      as [(? & ? & ? & ? & ? & E & _)|(e & E)]; rewrite E in L; discriminate L.
Qed.

(** ** C56 *)
(** A character of the layout and the glyph drawn for it. *)
Definition drawn_as_measured (c : @Box.tchar A) (g : @glyph A Fnt) : Prop :=
  c_size c = 0 -> gl_met g = c_metrics c.
Theorem C56_drawn_as_measured_generic : forall dst x size dpi fnts t err s call out,
  layout fnts x size = Some (LOk ((t, err), s)) ->
  render dst x size dpi fnts = Some ([call], out) ->
  Forall2 drawn_as_measured (letters t) (op_glyphs (d_ops call)).
Proof.
  intros dst x size dpi fnts t err s call out L R. unfold Render.render in R. fold (chosen fnts) in R. rewrite L in R.
  destruct (ship_parsed fnts x size t err s L) as (-> & b & gs & l & Et & (t' & st & SC & SO & _) & GC).
  destruct (parse_left EL _ _ _ _ _ _ _ _ _ _ _ (fun _ => True) Logic.I (or_introl Logic.I) L) as [(SN & CN) TQ].
  clear Et. rewrite SC, SO in R. rewrite letters_chars in GC.
  set (es := draws _ _ _ _ _ _ _) in *.
  destruct (draw_all sf (chosen fnts) es s) as [[[]|e] s'] eqn:E; [|discriminate R].
  destruct (draw_all_ok EL sf (chosen fnts) (fun _ => True) es s s' Logic.I SN E) as (_ & _ & ops & C & F2).
  injection R as <- _. cbn [d_ops]. unfold cnv_ops. rewrite C, CN. cbn [app new_canvas].
  apply shown_glyphs in F2. rewrite GC in F2.
  assert (TQ' : forall c, In c (letters t) -> measured sf (chosen fnts) (fun _ => True) (fofZ A 72) s c).
  { intros c I. eapply tq_letters; eassumption. }
  clear -F2 TQ'. generalize dependent (op_glyphs ops). clear ops. induction (letters t) as [|c cs IH]; intros l F2.
  - inversion F2. constructor.
  - cbn [map] in F2. inversion F2 as [|? g ? l' (v & -> & LK & W) F2']; subst. constructor.
    + clear IH F2 F2'. intros Z. cbn [fst snd] in *. destruct (TQ' c (or_introl eq_refl)) as (_ & _ & _ & M). destruct (M Z) as [M1 M2].
      change (mk_key (c_sym c) (c_font c) (c_dpi c)) with (char_key c) in *. cbn [glyph_of gl_met].
      destruct (key_eqb (char_key c) (char_key c)) eqn:K.
      * destruct (M1 eq_refl) as (w & Fw & Ew). rewrite (W _ Fw). exact Ew.
      * rewrite (M2 eq_refl). unfold looked in LK. rewrite K in LK. rewrite LK. reflexivity.
    + apply IH; [|exact F2']. intros c' I. apply TQ'. now right.
Qed.

(** ** C57, C58: formulas *)
(** Only formulas: no text outside of dollars. *)
Definition only_math (x : string) : Prop := exists l, parse_expr U x = Ok l /\ Forall (fun n => is_math n = true) l.

(** [o] is what a fresh backend draws for [e], up to Go's == on fonts and
    resolutions. *)
Definition drawn_fresh_as (fnts : @fonts Fnt) (e : @Ship.event A) (o : @op A Fnt) : Prop :=
  match e with
  | ERect x1 y1 x2 y2 => o = RectOp x1 y1 x2 y2
  | EGlyph x y ft sym dpi =>
      feqb A (f_size ft) (f_size ft) = true -> feqb A dpi dpi = true ->
      exists ft' dpi', same_font ft ft' /\ feqb A dpi dpi' = true /\
      forall k, fst (perform sf fnts (RGlyph x y ft' sym dpi') (new_ttf k)) = LOk (ADrawn [o])
  end.

Theorem C57_math_renders_generic : forall dst x size dpi fnts b gs l s,
  only_math x ->
  layout fnts x size = Some (LOk ((TL KHList b f0 gs l, None), s)) ->
  let es := draws f0 (fadd A f0 (b_height b)) false b (TL KHList b f0 gs l) f0 f0 in
  exists ops, Forall2 (drawn_fresh_as (chosen fnts)) es ops /\
    render dst x size dpi fnts = Some ([dst_args b dpi ops], ret_of (dst (dst_args b dpi ops))).
Proof.
  intros dst x size dpi fnts b gs l s OM L es. unfold Render.render. fold (chosen fnts). rewrite L.
  destruct (ship_parsed fnts x size _ _ s L) as (_ & b' & gs' & l' & [= <- <- <-] & (t' & st & SC & SO & TB & W & HH & D) & GC).
  fold es in SO, GC. rewrite SC, SO, W, HH, D.
  destruct (parse_left EL _ _ _ _ _ _ _ _ _ _ _ (fun m => m = true) eq_refl (or_intror OM) L) as [(SN & CN) TQ].
  assert (DA : Forall (drawable sf (chosen fnts) s) es).
  { apply drawable_all. intros q Iq. rewrite GC, letters_chars in Iq. apply in_map_iff in Iq as (c & <- & Ic).
    cbn [fst snd drawable]. right. apply makeable_val.
    destruct (tq_letters _ _ _ _ TQ Ic) as (_ & _ & MK & _). exact MK. }
  destruct (draw_all_runs EL sf (chosen fnts) es s DA) as (s' & E). rewrite E.
  destruct (draw_all_ok EL sf (chosen fnts) (fun m => m = true) es s s' eq_refl SN E) as (_ & _ & ops & C & F2).
  exists ops. split; [|unfold dst_args, cnv_ops; rewrite C, CN; reflexivity].
  clear -F2 EL. induction F2 as [|e o es ops H _ IH]; constructor; [clear IH|exact IH].
  destruct e as [x y ft sym d|]; cbn [shown drawn_fresh_as] in *; [|exact H].
  intros N1 N2. destruct H as (v & -> & LK & _). unfold looked in LK. rewrite key_eqb_num, N1, N2 in LK. cbn [andb k_sym] in LK.
  destruct LK as (ft' & d' & m & K & -> & V). pose proof (key_eqb_same _ _ _ _ _ K) as [SF SD].
  exists ft', d'. split; [exact SF|]. split; [exact SD|]. intros k. rewrite drawn_fresh, V.
  rewrite (key_refl_of EL (mk_key sym ft' d') (mk_key sym ft d)); [reflexivity|]. apply (key_eqb_sym EL). exact K.
Qed.
End Thms.

(** ** The theorems for float64 *)
Notation lay U range pf sf fnts x size := (mtex_parse U range (ttf_backend sf fnts) pf x size (fofZ _ 72) (new_ttf new_canvas)).

(** Render lays the expression out at 72 dpi on a fresh backend, ships it, and
    calls the renderer once with the size of the box in inches and the drawing; it
    panics when the layout does, or when a glyph cannot be drawn.  The renderer's
    answer is passed on. *)
Theorem C47_render : forall (Fnt : Type) U range pf (sf : @sfnt float64 Fnt) dflt dst x size dpi fnts,
  let f := chosen dflt fnts in
  let result := render U range pf sf dflt dst x size dpi fnts in
  (exists e, lay U range pf sf f x size = Some (LPanic e) /\ result = Some ([], Panics e)) \/
  (exists b gs l s, let t := TL KHList b (@f0 float64) gs l in
     lay U range pf sf f x size = Some (LOk ((t, None), s)) /\
     let es := draws f0 (fadd float64 f0 (b_height b)) false b t f0 f0 in
     ((exists e, result = Some ([], Panics e)) /\
      (exists x y ft sym d, In (EGlyph x y ft sym d) es /\
         forall k, exists e, fst (perform sf f (RGlyph x y ft sym d) (new_ttf k)) = LPanic e))
     \/
     exists ops, Forall2 (carries_out sf f) es ops /\
       result = Some ([dst_args b dpi ops], ret_of (dst (dst_args b dpi ops)))).
Proof. intros. exact (C47_render_generic float64_eq float64_zero U range pf sf dflt dst x size dpi fnts). Qed.

Theorem C47_error : forall (Fnt : Type) U range pf (sf : @sfnt float64 Fnt) dflt dst x size dpi fnts calls out,
  render U range pf sf dflt dst x size dpi fnts = Some (calls, out) ->
  (calls = [] /\ exists e, out = Panics e) \/ (exists c, calls = [c] /\ passed_on (dst c) out).
Proof. intros *. exact (C47_error_generic float64_eq float64_zero U range pf sf dflt dst x size dpi fnts calls out). Qed.

Theorem C47_dpi : forall (Fnt : Type) U range pf (sf : @sfnt float64 Fnt) dflt dst x size dpi fnts,
  (forall dpi', exists e, render U range pf sf dflt dst x size dpi fnts = Some ([], Panics e) /\
                          render U range pf sf dflt dst x size dpi' fnts = Some ([], Panics e)) \/
  (exists c, forall dpi', render U range pf sf dflt dst x size dpi' fnts = Some ([at_dpi dpi' c], ret_of (dst (at_dpi dpi' c)))).
Proof. intros. exact (C47_dpi_generic float64_zero U range pf sf dflt dst x size dpi fnts). Qed.

Theorem C56_drawn_as_measured : forall (Fnt : Type) U range pf (sf : @sfnt float64 Fnt) dflt dst x size dpi fnts t err s call out,
  lay U range pf sf (chosen dflt fnts) x size = Some (LOk ((t, err), s)) ->
  render U range pf sf dflt dst x size dpi fnts = Some ([call], out) ->
  Forall2 (fun c g => c_size c = 0 -> gl_met g = c_metrics c) (letters t) (op_glyphs (d_ops call)).
Proof. intros *. exact (C56_drawn_as_measured_generic float64_eq float64_zero U range pf sf dflt dst x size dpi fnts t err s call out). Qed.

(** Numbers that are == and not zero are identical. *)
Lemma eqb_leibniz (x y : float) : PrimFloat.eqb x y = true -> PrimFloat.eqb x 0 = false -> x = y.
Proof.
  rewrite !eqb_equiv. intros H Z. apply Prim2B_inj. destruct (beqb_fin _ _ H) as [(F1 & F2 & E)|(F1 & E)]; [|exact E].
  assert (N : B2R (Prim2B x) <> 0%R).
  { intros N. rewrite Beqb_correct in Z; [|exact F1|reflexivity]. rewrite Raux.Req_bool_true in Z; [discriminate Z|].
    rewrite N. symmetry. vm_compute. reflexivity. }
  apply B2R_inj; [| |exact E].
  - destruct (Prim2B x); try discriminate F1; [|reflexivity]. destruct N. reflexivity.
  - destruct (Prim2B y); try discriminate F2; [|reflexivity]. destruct N. rewrite E. reflexivity.
Qed.

(** [o] is what a fresh backend draws for [e]. *)
Definition fresh_drawing {A : arith} {Fnt} (sf : @sfnt A Fnt) fnts (e : @Ship.event A) (o : @op A Fnt) : Prop :=
  forall k, fst (perform sf fnts (request_of e) (new_ttf k)) = LOk (ADrawn [o]).

(** A formula that can be laid out is rendered: nothing panics but the renderer,
    and each glyph is drawn as a fresh backend draws it. *)
Theorem C57_math_renders : forall (Fnt : Type) U range pf (sf : @sfnt float64 Fnt) dflt dst x size dpi fnts b gs l s,
  only_math U x ->
  let f := chosen dflt fnts in
  let t := TL KHList b (@f0 float64) gs l in
  lay U range pf sf f x size = Some (LOk ((t, None), s)) ->
  let es := draws f0 (fadd float64 f0 (b_height b)) false b t f0 f0 in
  exists ops,
    Forall2 (fun e o =>
      match e with
      | EGlyph _ _ ft _ _ => PrimFloat.eqb (f_size ft) (f_size ft) = true -> PrimFloat.eqb (f_size ft) 0 = false -> fresh_drawing sf f e o
      | ERect _ _ _ _ => fresh_drawing sf f e o
      end) es ops /\
    render U range pf sf dflt dst x size dpi fnts = Some ([dst_args b dpi ops], ret_of (dst (dst_args b dpi ops))).
Proof.
  intros Fnt U range pf sf dflt dst x size dpi fnts b gs l s OM f t L es.
  pose proof (ship_parsed float64_zero U range pf sf dflt fnts x size _ _ s L) as (_ & b' & gs' & l' & Et & _ & GC).
  unfold t in Et. injection Et as <- <- <-. fold t es in GC. rewrite letters_chars in GC.
  destruct (parse_left float64_eq _ _ _ _ _ _ _ _ _ _ _ (fun m => m = true) eq_refl (or_intror OM) L) as [_ TQ].
  destruct (C57_math_renders_generic float64_eq float64_zero U range pf sf dflt dst x size dpi fnts b gs l s OM L) as (ops & F2 & R).
  exists ops. split; [|exact R]. fold t es f in F2. clear R L.
  assert (DP : forall x y ft sym d, In (EGlyph x y ft sym d) es -> d = fofZ float64 72).
  { intros x0 y0 ft sym d I. assert (J : In (ft, sym, d) (glyphs es)) by (unfold glyphs; apply in_flat_map; eexists; split; [exact I|now left]).
    rewrite GC in J. apply in_map_iff in J as (c & [= <- <- <-] & Ic). destruct (tq_letters _ _ _ _ TQ Ic) as (_ & D & _). exact D. }
  clear -F2 DP. induction F2 as [|e o es ops H F2 IH]; constructor; [clear IH F2|apply IH; intros; eapply DP; right; eassumption].
  destruct e as [x y ft sym d|]; cbn [drawn_fresh_as] in H.
  - intros N Z. specialize (DP x y ft sym d (or_introl eq_refl)). subst d.
    destruct (H N eq_refl) as (ft' & d' & (S1 & S2 & S3) & D & P). cbn [feqb float64] in S3, D.
    apply eqb_leibniz in D; [|reflexivity]. apply eqb_leibniz in S3; [|exact Z].
    destruct ft as [n ty z], ft' as [n' ty' z']. cbn [f_name f_type f_size] in *. subst. exact P.
  - subst o. intros k. cbn [request_of perform drawn render_rect_filled fst snd t_canvas]. unfold cnv_rect.
    now rewrite skipn_app_exact.
Qed.
