(** C69, C70: formulas and the glyph cache; the size of the picture of a formula. *)
From Coq Require Import ZArith String Ascii List Bool Lia QArith Qcanon Lqa.
From Verif Require Import Utf8 Token Ast Parser Symbols PropSymbols Arith Exact OrderLaws ExactFacts Box Ship ShipFacts ShipFacts2 PropShip
  Mtex MtexFacts MtexFacts2 PropMtex MtexHoare MtexSim Ttf TtfSpec TtfFacts TtfExact PropTtf Render RenderFacts PropRender PropImage
  ReadSpec PropRead GeomSpec GeomFacts PropGeom SizeSpec SizeFacts PropSize.
Import ListNotations.
Local Open Scope string_scope.
Local Open Scope list_scope.
Local Open Scope Z_scope.

(** ** Specification *)
Section Spec.
Context {Fnt : Type}.
Variable U : Z -> bool.
Variable range : Symbols.gset -> list string.
Variable pf : string -> option (Arith.F exact).
Variable sf : @sfnt exact Fnt.
Variable fnts : @fonts Fnt.

(** A backend that has served only formulas: calls in math mode, and whole
    formulas. *)
Definition in_math (r : @request exact) : Prop := match r with RMetrics _ _ _ m => m = true | _ => True end.
Inductive served : @ttf exact Fnt -> Prop :=
  | served_new c : served (new_ttf c)
  | served_call r s : in_math r -> served s -> served (snd (perform sf fnts r s))
  | served_formula x size dpi s r s' : only_math U x -> served s ->
      mtex_parse U range (ttf_backend sf fnts) pf x size dpi s = Some (LOk (r, s')) -> served s'.

(** What the caller of mtex.Parse sees. *)
Definition seen_of {X S} (o : option (lres (X * S))) : option (lres X) :=
  match o with
  | Some (LOk (x, _)) => Some (LOk x)
  | Some (LPanic e) => Some (LPanic e)
  | None => None
  end.

Variable dpi : Qc.
(** The measurements of the fonts: what a fresh backend answers in math
    mode. *)
Definition value (x : xq) : Qc := match x with Fin q => q | _ => 0%Qc end.
Definition ask_metrics (sym : string) (f : font) : @metrics exact :=
  match fst (metrics_of sf fnts sym f (Fin dpi) true (new_ttf new_canvas)) with LOk m => m | LPanic _ => met0 end.
Definition ask_kern (f1 : font) (s1 : string) (f2 : font) (s2 : string) : Qc :=
  match fst (kern sf fnts f1 s1 f2 s2 (Fin dpi) (new_ttf new_canvas)) with LOk k => value k | LPanic _ => 0%Qc end.
Definition font_measures : measures := mk_measures
  (fun sym f _ => value (m_adv (ask_metrics sym f)))
  (fun sym f _ => value (m_iceberg (ask_metrics sym f)))
  (fun sym f _ => value (m_height (ask_metrics sym f)) - value (m_iceberg (ask_metrics sym f)))%Qc
  (fun sym f _ => (value (m_ymax (ask_metrics sym f)) + value (m_ymin (ask_metrics sym f))) / (1 + 1))%Qc
  ask_kern
  (fun f => value (underline f (Fin dpi)))
  (fun v => match pf v with Some x => value x | None => 0%Qc end).
(** The delimiters that can be measured have an extent, and numbers are finite. *)
Definition usable (size : Qc) : Prop :=
  (forall c f m, In c ["("; ")"; "\__sqrt__"] -> f_size f = Fin size ->
     fst (metrics_of sf fnts c f (Fin dpi) true (new_ttf new_canvas)) = LOk m -> m_height m <> Fin 0%Qc) /\
  (forall v x, pf v = Some x -> exists q, x = Fin q).
End Spec.

(** ** Proofs *)
Section Cache.
Context {Fnt : Type}.
Variable sf : @sfnt exact Fnt.
Variable fnts : @fonts Fnt.
(** The stateless backend. *)
Definition fresh_backend : @backend exact unit := {|
  be_kern := fun f1 s1 f2 s2 dpi => mlift (fst (kern sf fnts f1 s1 f2 s2 dpi (new_ttf new_canvas)));
  be_metrics := fun s f dpi m => mlift (fst (metrics_of sf fnts s f dpi true (new_ttf new_canvas)));
  be_xheight := fun f dpi => mlift (fst (xheight sf fnts f dpi (new_ttf new_canvas)));
  be_underline := fun f dpi => mret (underline f dpi) |}.
Definition related (s : @ttf exact Fnt) (_ : unit) : Prop := exists h, Forall in_math h /\ from sf fnts h s.

Lemma math_agree h : Forall in_math h -> all_agree h.
Proof.
  intros H r1 r2 q1 q2 I1 I2 N1 N2 K. split; [now apply key_eq_exact|]. left.
  rewrite Forall_forall in H.
  assert (M : forall r q, In r h -> In q (needs r) -> snd q = true).
  { intros r q I N. specialize (H r I). destruct r; cbn [needs] in N; cbn [In] in N; repeat (destruct N as [<-|N]; [cbn [snd]; try reflexivity; exact H|]); destruct N. }
  now rewrite (M _ _ I1 N1), (M _ _ I2 N2).
Qed.
Lemma related_call r s : in_math r -> related s tt ->
  fst (perform sf fnts r s) = fst (perform sf fnts r (new_ttf new_canvas)) /\ related (snd (perform sf fnts r s)) tt.
Proof.
  intros M (h & HM & HF). assert (HM' : Forall in_math (r :: h)) by (constructor; assumption).
  assert (HF' : from sf fnts (r :: h) s) by (intros kv I; destruct (HF kv I) as (r0 & q & I0 & N & E); exists r0, q; split; [now right|auto]).
  split.
  - rewrite (perform_fresh sf fnts (r :: h) r s (math_agree _ HM') HF' (or_introl eq_refl)).
    rewrite (perform_fresh sf fnts (r :: h) r (new_ttf new_canvas) (math_agree _ HM')); [reflexivity| |now left]. intros kv [].
  - exists (r :: h). split; [exact HM'|]. apply perform_from; [now left|exact HF'].
Qed.
Lemma amap_inv {X} (f : X -> @answer exact Fnt) (a b : lres X * @ttf exact Fnt) : (forall x y, f x = f y -> x = y) ->
  fst (amap f a) = fst (amap f b) -> fst a = fst b.
Proof.
  intros INJ. unfold amap. cbn [fst]. destruct (fst a) as [x|e], (fst b) as [y|e']; intros H; try discriminate H.
  - f_equal. apply INJ. assert (Q : forall u v : @answer exact Fnt, LOk u = LOk v -> u = v) by (intros u v E; now injection E). now apply Q.
  - assert (Q : forall u v : string, @LPanic (@answer exact Fnt) u = LPanic v -> u = v) by (intros u v E; now injection E). f_equal. now apply Q.
Qed.
Lemma call_sim {X} (m : @call exact Fnt X) (r : @request exact) (f : X -> @answer exact Fnt) :
  (forall x y, f x = f y -> x = y) -> in_math r -> (forall s, perform sf fnts r s = amap f (m s)) ->
  sim related (to_M m) (mlift (fst (m (new_ttf new_canvas)))) any.
Proof.
  intros INJ M P s [] HR. destruct (related_call r s M HR) as [E1 E2]. rewrite !P in E1. apply (amap_inv f _ _ INJ) in E1.
  rewrite P in E2. cbn [amap snd] in E2. unfold to_M. rewrite <- E1. destruct (m s) as [[x|e] s']; cbn [fst snd mlift mret] in *.
  - split; [reflexivity|]. split; [exact I|exact E2].
  - reflexivity.
Qed.
Lemma cache_sims : sims (ttf_backend sf fnts) fresh_backend related (fun m => m = true).
Proof.
  constructor; [reflexivity| | | |]; cbn [ttf_backend fresh_backend be_metrics be_kern be_xheight be_underline].
  - intros sym ft dpi m ->. apply (call_sim _ (RMetrics sym ft dpi true) AMetrics); [|reflexivity|reflexivity].
    intros x y E. assert (Q : forall u v : @metrics exact, @AMetrics exact Fnt u = AMetrics v -> u = v) by (intros u v E'; inversion E'; reflexivity). now apply Q.
  - intros f1 c1 f2 c2 dpi. apply (call_sim _ (RKern f1 c1 f2 c2 dpi) ANumber); [|exact I|reflexivity].
    intros x y E. assert (Q : forall u v : xq, @ANumber exact Fnt u = ANumber v -> u = v) by (intros u v E'; inversion E'; reflexivity). now apply Q.
  - intros ft dpi. apply (call_sim _ (RXHeight ft dpi) ANumber); [|exact I|reflexivity].
    intros x y E. assert (Q : forall u v : xq, @ANumber exact Fnt u = ANumber v -> u = v) by (intros u v E'; inversion E'; reflexivity). now apply Q.
  - intros ft dpi s [] HR. split; [reflexivity|]. split; [exact I|exact HR].
Qed.
Lemma formula_sim U range pf x size dpi s : only_math U x -> related s tt ->
  seen_of (mtex_parse U range (ttf_backend sf fnts) pf x size dpi s) = seen_of (mtex_parse U range fresh_backend pf x size dpi tt) /\
  forall r s', mtex_parse U range (ttf_backend sf fnts) pf x size dpi s = Some (LOk (r, s')) -> related s' tt.
Proof.
  intros (l & P & OM) HR. unfold mtex_parse. rewrite P.
  pose proof (typeset_sim range _ _ pf x related (fun m => m = true) cache_sims l size dpi (or_intror OM) s tt HR) as H.
  unfold mbind. unfold alike in H.
  destruct (typeset range (ttf_backend sf fnts) pf x l size dpi s) as [[t s1]|e], (typeset range fresh_backend pf x l size dpi tt) as [[t' []]|e']; try contradiction.
  - destruct H as (<- & _ & H). split; [reflexivity|]. intros r s' E. unfold mret in E.
    assert (Q : s1 = s') by (inversion E; reflexivity). subst s'. exact H.
  - subst e'. split; [reflexivity|]. intros r s' E. discriminate E.
Qed.
Lemma served_related U range pf s : served U range pf sf fnts s -> related s tt.
Proof.
  induction 1 as [c|r s M _ IH|x size dpi s r s' OM _ IH E].
  - exists []. split; [constructor|]. intros kv [].
  - apply related_call; assumption.
  - eapply formula_sim; eassumption.
Qed.
End Cache.

(** ** C69 *)
(** The cache cannot be noticed when formulas are laid out: whatever formulas were
    laid out or drawn before with the same backend, the result (or panic) is that of
    a fresh backend. *)
Theorem C69_cache_transparent : forall (Fnt : Type) U range pf (sf : @sfnt exact Fnt) fnts x size dpi s c,
  only_math U x -> served U range pf sf fnts s ->
  seen_of (mtex_parse U range (ttf_backend sf fnts) pf x size dpi s) =
  seen_of (mtex_parse U range (ttf_backend sf fnts) pf x size dpi (new_ttf c)).
Proof.
  intros * OM SV. rewrite (proj1 (formula_sim sf fnts U range pf x size dpi s OM (served_related _ _ _ _ _ _ SV))).
  symmetry. apply formula_sim; [exact OM|]. exact (served_related _ _ _ _ _ _ (served_new U range pf sf fnts c)).
Qed.

(** ** C70 *)
Section Measured.
Context {Fnt : Type}.
Variable pf : string -> option (Arith.F exact).
Variable sf : @sfnt exact Fnt.
Variable fnts : @fonts Fnt.
Variable dpi : Qc.
Notation M := (font_measures pf sf fnts dpi).

Lemma value_fin q : value (Fin q) = q. Proof. reflexivity. Qed.
Lemma asked sym nm ty m z x s' : be_metrics (fresh_backend sf fnts) sym (mk_font nm ty (Fin z)) (Fin dpi) m tt = LOk (x, s') ->
  ask_metrics sf fnts dpi sym (mk_font nm ty (Fin z)) = x /\ exists n, x = nums_metrics n z dpi.
Proof.
  cbn [fresh_backend be_metrics]. intros E. unfold ask_metrics.
  rewrite metrics_fresh in E |- *.
  destruct (glyph_val_nums sf fnts sym nm ty true) as [(n & f & ps & name & rn & idx & off & G)|(e & G)]; rewrite G in E |- *; [|discriminate E].
  rewrite key_fin_refl in E |- *. cbn [v_met] in E |- *. apply ret_ok in E as [-> _]. split; [reflexivity|]. exists n. reflexivity.
Qed.
Lemma kern_fin f1 s1 f2 s2 x : fst (kern sf fnts f1 s1 f2 s2 (Fin dpi) (new_ttf new_canvas)) = LOk x -> exists q, x = Fin q.
Proof.
  unfold kern. destruct (_ && _); [|intros E; exists 0%Qc; cbn [cret fst] in E; assert (Q : x = @f0 exact) by (inversion E; reflexivity); exact Q].
  unfold cbind. destruct (get_info sf fnts s1 f1 (Fin dpi) true _) as [[v1|e] t1]; [|discriminate].
  destruct (get_info sf fnts s2 f2 (Fin dpi) true t1) as [[v2|e] t2]; [|discriminate]. cbn [cret fst].
  destruct (v_font v1) as [f|]; cbn [need lbind]; [|discriminate].
  destruct (sf_kern sf f _ _ _); [| |discriminate].
  - rewrite ofZ_fin, div_fin by lia. intros E. eexists. inversion E. reflexivity.
  - intros E. exists 0%Qc. inversion E. reflexivity.
Qed.
Lemma under_fin f z : f_size f = Fin z -> underline f (Fin dpi) = Fin (Q2Qc (1 # 16) * z * dpi / zq 72)%Qc.
Proof. intros F. unfold underline. rewrite F, frat_is, !mul_fin, div_fin by lia. reflexivity. Qed.
Lemma fonts_measured size : (0 <= size)%Qc -> (0 <= dpi)%Qc -> usable pf sf fnts dpi size -> measured_by M size dpi (fresh_backend sf fnts) pf.
Proof.
  intros SP DP (DEL & NUM). unfold measured_by. split; [|split; [|split; [|split]]].
  - intros sym [nm ty z'] z m [] x s' F E. cbn [f_size] in F. subst z'. destruct (asked _ _ _ _ _ _ _ E) as (A & n & N).
    unfold font_measures. cbn [adv up down mid]. rewrite A. rewrite N. unfold nums_metrics. cbn [m_adv m_iceberg m_height m_width m_ymax m_ymin].
    rewrite !value_fin. split; [reflexivity|]. split; [reflexivity|]. split; [f_equal; ring|]. split; [eauto|].
    eexists _, _. split; [reflexivity|]. split; reflexivity.
  - intros f1 s1 f2 s2 [] x s' E. cbn [fresh_backend be_kern] in E. unfold font_measures. cbn [pair]. unfold ask_kern.
    destruct (fst (kern _ _ _ _ _ _ _ _)) as [k|e] eqn:K; [|discriminate E]. apply ret_ok in E as [-> _].
    destruct (kern_fin _ _ _ _ _ K) as (q & ->). reflexivity.
  - intros f [] x s' F E. cbn [fresh_backend be_underline] in E. apply ret_ok in E as [-> _]. unfold font_measures. cbn [line].
    rewrite (under_fin f size F), value_fin. split; [reflexivity|].
    unfold Qcdiv. assert (P : (0 <= Q2Qc (1 # 16))%Qc) by discriminate. assert (P2 : (0 <= / zq 72)%Qc) by discriminate.
    assert (MP : forall a b, (0 <= a -> 0 <= b -> 0 <= a * b)%Qc).
    { intros a b Ha Hb. replace 0%Qc with (0 * b)%Qc by ring. now apply Qcmult_le_compat_r. }
    auto.
  - intros v x E. unfold font_measures. cbn [number]. rewrite E. destruct (NUM v x E) as (q & ->). reflexivity.
  - intros c [nm ty z'] [] x s' I F E. cbn [f_size] in F. subst z'. destruct (asked _ _ _ _ _ _ _ E) as (A & n & N).
    cbn [fresh_backend be_metrics] in E. unfold font_measures. cbn [up down].
    replace (_ + _)%Qc with (value (m_height (ask_metrics sf fnts dpi c (mk_font nm ty (Fin size))))) by ring.
    rewrite A. intros Z. destruct (fst (metrics_of _ _ _ _ _ _ _)) as [m|e] eqn:Q; [|discriminate E].
    apply ret_ok in E as [-> _]. apply (DEL c (mk_font nm ty (Fin size)) m I eq_refl Q). rewrite N in Z |- *. unfold nums_metrics in *. cbn [m_height] in *.
    rewrite value_fin in Z. now rewrite Z.
Qed.
End Measured.

Lemma formula_sized {Fnt} U range pf (sf : @sfnt exact Fnt) fnts x l (size dpi : Qc) s t err s' :
  fair range -> (0 <= size)%Qc -> (0 <= dpi)%Qc -> usable pf sf fnts dpi size ->
  parse_expr U x = Ok l -> Forall (fun n => is_math n = true) l -> served U range pf sf fnts s ->
  mtex_parse U range (ttf_backend sf fnts) pf x (Fin size) (Fin dpi) s = Some (LOk ((t, err), s')) ->
  sized t (size_of_expression (font_measures pf sf fnts dpi) x size dpi l).
Proof.
  intros FR SP DP US P OM SV E.
  destruct (formula_sim sf fnts U range pf x (Fin size) (Fin dpi) s (ex_intro _ l (conj P OM)) (served_related _ _ _ _ _ _ SV)) as [H _].
  rewrite E in H. cbn [seen_of] in H.
  destruct (mtex_parse U range (fresh_backend sf fnts) pf x (Fin size) (Fin dpi) tt) as [[[[t' err'] []]|e]|] eqn:E'; try discriminate H.
  cbn [seen_of] in H. assert (Q : t = t') by (inversion H; reflexivity). subst t'.
  eapply C64_size; [exact FR|apply fonts_measured; eassumption|exact P|exact E'].
Qed.

(** The box of a formula, typeset with TrueType fonts, has the size that follows
    from the formula and the measurements of the fonts. *)
Theorem C70_box : forall (Fnt : Type) U range pf (sf : @sfnt exact Fnt) fnts x l (size dpi : Qc) s t err s',
  fair range -> (0 <= size)%Qc -> (0 <= dpi)%Qc -> usable pf sf fnts dpi size ->
  parse_expr U x = Ok l -> Forall (fun n => is_math n = true) l -> served U range pf sf fnts s ->
  mtex_parse U range (ttf_backend sf fnts) pf x (Fin size) (Fin dpi) s = Some (LOk ((t, err), s')) ->
  sized t (size_of_expression (font_measures pf sf fnts dpi) x size dpi l).
Proof. intros *. apply formula_sized. Qed.

(** The picture that Render asks for has that size, the height rounded up to a whole
    point; a depth above the baseline does not count. *)
Theorem C70_picture : forall (Fnt : Type) U range pf (sf : @sfnt exact Fnt) dflt dst x l (size : Qc) dpi fnts calls out,
  fair range -> (0 <= size)%Qc ->
  let f := chosen dflt fnts in
  usable pf sf f (zq 72) size ->
  parse_expr U x = Ok l -> Forall (fun n => is_math n = true) l ->
  render U range pf sf dflt dst x (Fin size) dpi fnts = Some (calls, out) ->
  let e := size_of_expression (font_measures pf sf f (zq 72)) x size (zq 72) l in
  (calls = [] /\ exists e, out = Panics e) \/
  exists ops, calls = [mk_dst (Fin (x_w e / zq 72)%Qc) (Fin (zq (Qround.Qceiling (x_h e + qmax (x_d e) 0)%Qc) / zq 72)%Qc) dpi ops].
Proof.
  intros * FR SP f US P OM R e.
  destruct (C47_render_generic exact_eq exact_zero U range pf sf dflt dst x (Fin size) dpi fnts)
    as [(er & _ & R')|(b & gs & k & s & L & [((er & R') & _)|(ops & _ & R')])];
    rewrite R in R'.
  1,2: left; split; [|exists er]; inversion R'; reflexivity.
  right. exists ops.
  assert (Q : calls = [dst_args b dpi ops]) by (inversion R'; reflexivity). rewrite Q. unfold dst_args.
  fold f in L.
  pose proof (formula_sized U range pf sf f x l size (zq 72) _ _ _ _ FR SP (ltac:(discriminate) : (0 <= zq 72)%Qc) US P OM (served_new U range pf sf f new_canvas) L) as (W & H & D).
  fold e in W, H, D. cbn [t_width t_height t_depth] in W, H, D. rewrite W, H, D.
  rewrite div_fin by lia. do 2 f_equal.
  rewrite f0_exact, fmax_fin, add_fin.
  change (fceil exact (Fin ?q)) with (fofZ exact (Qround.Qceiling q)).
  rewrite ofZ_fin, div_fin by lia. reflexivity.
Qed.

Lemma pixels_up (q : Qc) : int_ceil (A := exact) (Fin q) = Qround.Qceiling q.
Proof.
  destruct (C58_size_exact q) as [H1 H2]. set (n := int_ceil _) in *. clearbody n.
  pose proof (Qround.Qle_ceiling q) as H3. pose proof (Qround.Qceiling_lt q) as H4. set (m := Qround.Qceiling q) in *. clearbody m.
  unfold Z.sub in H4; rewrite inject_Z_plus in H4; change (inject_Z (-(1))) with (- (1))%Q in H4.
  apply Z.le_antisymm; apply Z.lt_succ_r; unfold Z.succ; rewrite Zlt_Qlt, inject_Z_plus; change (inject_Z 1) with 1%Q; lra.
Qed.
(** With the PNG renderer: the size of the image in pixels. *)
Theorem C70_pixels : forall (Fnt : Type) U range pf (sf : @sfnt exact Fnt) dflt face_ok enc x l (size dpi : Qc) fnts calls,
  fair range -> (0 <= size)%Qc ->
  let f := chosen dflt fnts in
  usable pf sf f (zq 72) size ->
  parse_expr U x = Ok l -> Forall (fun n => is_math n = true) l ->
  render U range pf sf dflt (png_dst face_ok enc) x (Fin size) (Fin dpi) fnts = Some (calls, RetNil) ->
  let e := size_of_expression (font_measures pf sf f (zq 72)) x size (zq 72) l in
  exists c cmds marks, calls = [c] /\ img_render face_ok c = LOk cmds /\
    images cmds = [(Qround.Qceiling (x_w e / zq 72 * dpi)%Qc,
                    Qround.Qceiling (zq (Qround.Qceiling (x_h e + qmax (x_d e) 0)%Qc) / zq 72 * dpi)%Qc, marks)].
Proof.
  intros * FR SP f US P OM R e.
  destruct (C70_picture _ _ _ _ _ _ _ _ _ _ _ _ _ _ FR SP US P OM R) as [(-> & er & H)|(ops & EC)]; [discriminate H|]. fold f e in EC.
  assert (NP : forall er, png_dst face_ok enc (List.hd (mk_dst (Fin 0%Qc) (Fin 0%Qc) (Fin 0%Qc) []) calls) <> DstPanic er).
  { intros er Q. rewrite EC in Q. cbn [List.hd] in Q.
    destruct (C47_render_generic exact_eq exact_zero U range pf sf dflt (png_dst face_ok enc) x (Fin size) (Fin dpi) fnts)
      as [(er' & _ & R')|(b & gs & k & s & L & [((er' & R') & _)|(ops' & _ & R')])]; rewrite R in R'; try discriminate R'.
    assert (QC : calls = [dst_args b (Fin dpi) ops']) by (inversion R'; reflexivity).
    rewrite EC in QC. assert (QD : forall a b : @dst_call exact Fnt, [a] = [b] -> a = b) by (intros ? ? X; inversion X; reflexivity).
    apply QD in QC. rewrite QC in Q. rewrite Q in R'. discriminate R'. }
  rewrite EC in NP. cbn [List.hd] in NP. unfold png_dst in NP.
  set (c := mk_dst _ _ _ _) in *.
  destruct (C58_image face_ok c) as [(cmds & ms & I & _ & IM & _)|(er & I & _)]; rewrite I in NP; [|now destruct (NP er)].
  exists c, cmds, ms. split; [exact EC|]. split; [exact I|]. rewrite IM. unfold c. cbn [d_w d_h d_dpi]. rewrite !mul_fin, !pixels_up. reflexivity.
Qed.

(** Fonts without kerning: at [c] times the size, the box is [c] times as large. *)
Definition no_kerning {Fnt} (sf : @sfnt exact Fnt) : Prop := forall f i j p k, sf_kern sf f i j p = KernIs k -> k = 0.
Lemma fonts_enlarged {Fnt} pf (sf : @sfnt exact Fnt) fnts dpi c : no_kerning sf ->
  enlarged c 1 (font_measures pf sf fnts dpi) (font_measures pf sf fnts dpi).
Proof.
  intros NK.
  assert (K : forall f1 s1 f2 s2, ask_kern sf fnts dpi f1 s1 f2 s2 = 0%Qc).
  { intros. unfold ask_kern, kern. destruct (_ && _); [|reflexivity].
    unfold cbind. destruct (get_info sf fnts s1 f1 (Fin dpi) true _) as [[v1|e] t1]; [|reflexivity].
    destruct (get_info sf fnts s2 f2 (Fin dpi) true t1) as [[v2|e] t2]; [|reflexivity]. cbn [cret fst].
    destruct (v_font v1) as [f|]; cbn [need lbind]; [|reflexivity].
    destruct (sf_kern sf f _ _ _) as [k| |] eqn:E; [|reflexivity|reflexivity].
    rewrite (NK _ _ _ _ _ E). rewrite ofZ_fin, div_fin by lia. rewrite value_fin. apply Qc_is_canon. reflexivity. }
  split; [|split; [|split]].
  - intros sym name typ z m f f'. unfold font_measures. cbn [adv up down mid]. unfold ask_metrics. rewrite !metrics_fresh. subst f f'.
    destruct (glyph_val_nums sf fnts sym name typ true) as [(n & g & ps & nm & rn & idx & off & Q)|(e & Q)].
    + rewrite !Q, !key_fin_refl. cbn [v_met nums_metrics m_adv m_iceberg m_height m_ymax m_ymin]. rewrite !value_fin.
      repeat split; try ring. unfold Qcdiv. ring.
    + rewrite !Q. unfold met0. cbn [m_adv m_iceberg m_height m_ymax m_ymin].
      change (value f0) with 0%Qc. unfold Qcdiv. repeat split; ring.
  - intros. unfold font_measures. cbn [pair]. rewrite !K. ring.
  - intros name typ z. unfold font_measures. cbn [line].
    rewrite (under_fin dpi (mk_font name typ (Fin (c * z))) (c * z) eq_refl), (under_fin dpi (mk_font name typ (Fin z)) z eq_refl), !value_fin.
    unfold Qcdiv. ring.
  - reflexivity.
Qed.
Theorem C70_scaling : forall (Fnt : Type) U range pf (sf : @sfnt exact Fnt) fnts x (size dpi c : Qc) s1 s2 t1 e1 s1' t2 e2 s2',
  fair range -> no_kerning sf -> (0 <= size)%Qc -> (0 <= dpi)%Qc -> (0 < c)%Qc ->
  usable pf sf fnts dpi size -> usable pf sf fnts dpi (c * size) ->
  only_math U x -> served U range pf sf fnts s1 -> served U range pf sf fnts s2 ->
  mtex_parse U range (ttf_backend sf fnts) pf x (Fin size) (Fin dpi) s1 = Some (LOk ((t1, e1), s1')) ->
  mtex_parse U range (ttf_backend sf fnts) pf x (Fin (c * size)) (Fin dpi) s2 = Some (LOk ((t2, e2), s2')) ->
  exists w h d, sized t1 (mk_ext w h d) /\ sized t2 (mk_ext (c * w) (c * h) (c * d)).
Proof.
  intros * FR NK SP DP CP US1 US2 (l & P & OM) V1 V2 E1 E2.
  pose proof (formula_sized _ _ _ _ _ _ _ _ _ _ _ _ _ FR SP DP US1 P OM V1 E1) as H1.
  assert (SP2 : (0 <= c * size)%Qc).
  { replace 0%Qc with (0 * size)%Qc by ring. apply Qcmult_le_compat_r; [now apply Qclt_le_weak|exact SP]. }
  pose proof (formula_sized _ _ _ _ _ _ _ _ _ _ _ _ _ FR SP2 DP US2 P OM V2 E2) as H2.
  assert (KP : (0 < c * 1)%Qc) by (now rewrite Qcmult_1_r).
  pose proof (expression_scale _ _ c 1 (fonts_enlarged pf sf fnts dpi c NK) KP x size dpi l) as SC.
  rewrite Qcmult_1_l in SC. rewrite SC in H2.
  destruct (size_of_expression _ x size dpi l) as [w h d]. exists w, h, d. split; [exact H1|].
  unfold scale in H2. cbn [x_w x_h x_d] in H2. now rewrite Qcmult_1_r in H2.
Qed.

(** ** Cases *)
(** The toy fonts without kerning. *)
Definition flat : @sfnt exact unit := {|
  sf_name := fun _ => Some "Toy"; sf_index := fun _ r => Some r; sf_gname := fun _ _ => Some "g";
  sf_upem := fun _ => 1000; sf_load := fun _ _ _ => true;
  sf_advance := fun _ i p => Some (Z.abs (i * p)); sf_bounds := fun _ i p => Some (0, - p, i * p, 0);
  sf_kern := fun _ _ _ _ => KernNotFound; sf_xheight := fun _ _ _ => Some (-320);
  uni_L := fun r => (65 <=? r) && (r <=? 122) |}.
Definition no_numbers : string -> option (Arith.F exact) := fun _ => None.
Example flat_no_kerning : no_kerning flat. Proof. intros f i j p k E. discriminate E. Qed.
Lemma flat_height c nm ty z v : glyph_val flat toy_fonts c (mk_font nm ty (Fin z)) (Fin (Q2Qc 72)) true = LOk v -> m_height (v_met v) = Fin z.
Proof.
  unfold glyph_val, get_glyph. cbn [f_type f_size flat sf_name sf_index sf_gname sf_upem sf_load sf_advance sf_bounds sf_kern uni_L].
  destruct (index c true) as [r|]; cbn [need lbind]; [|discriminate].
  destruct (get_font toy_fonts _) as [f|]; cbn [need lbind]; [|discriminate].
  intros E. assert (Q : forall u w : @val exact unit, LOk u = LOk w -> u = w) by (intros u w X; inversion X; reflexivity). apply Q in E. subst v. cbn [v_met m_height].
  rewrite !div_fin by lia. rewrite !ofZ_fin, !mul_fin, !(div_fin' _ 64) by lia. rewrite sub_fin. apply f_equal.
  change (- - fixed_I 12) with 768. change (- 0) with 0. unfold fixed_I.
  assert (zq 768 = zq 12 * zq 64)%Qc as -> by (apply Qc_is_canon; reflexivity).
  assert (zq 0 = 0)%Qc as -> by (apply Qc_is_canon; reflexivity).
  field. split; apply zq_nz; lia.
Qed.
Lemma flat_usable_at z : (0 < z)%Qc -> usable no_numbers flat toy_fonts (Q2Qc 72) z.
Proof.
  intros ZP. split; [|intros v x E; discriminate E]. intros c [nm ty z'] m _ F. cbn [f_size] in F. subst z'.
  rewrite metrics_fresh. destruct (glyph_val flat toy_fonts c _ _ _) as [v|e] eqn:E; [|discriminate]. rewrite key_fin_refl.
  apply flat_height in E. intros Q. assert (X : m = v_met v) by (inversion Q; reflexivity). subst m. rewrite E.
  intros Z. assert (Y : z = 0%Qc) by (now apply fin_inj). rewrite Y in ZP. discriminate ZP.
Qed.
Example flat_usable : usable no_numbers flat toy_fonts (Q2Qc 72) (Q2Qc 10) /\ usable no_numbers flat toy_fonts (Q2Qc 72) (Q2Qc 3 * Q2Qc 10).
Proof. split; apply flat_usable_at; reflexivity. Qed.
(** Two formulas one after the other: the sizes in hundredths of the second one after
    the first, alone, as specified, and at three times the size. *)
Definition two_formulas (first : option string) (x : string) (size : Qc) : option (list Z) :=
  let run y s := mtex_parse ascii_only id_range (ttf_backend flat toy_fonts) no_numbers y (Fin size) dpi72 s in
  let s := match first with
           | Some y => match run y (new_ttf new_canvas) with Some (LOk (_, s)) => s | _ => new_ttf new_canvas end
           | None => new_ttf new_canvas
           end in
  match run x s with
  | Some (LOk (t, None, _)) => Some [cents (t_width t); cents (t_height t); cents (t_depth t)]
  | _ => None
  end.
Definition formula_cents (x : string) (size : Qc) : option (list Z) :=
  match parse_expr ascii_only x with
  | Ok l => let e := size_of_expression (font_measures no_numbers flat toy_fonts (Q2Qc 72)) x size (Q2Qc 72) l in
            Some [cents (Fin (x_w e)); cents (Fin (x_h e)); cents (Fin (x_d e))]
  | _ => None
  end.
Example C70_case :
  let x := "$\sqrt{x}+\frac{a}{2}$" in
  two_formulas None x (Q2Qc 10) = formula_cents x (Q2Qc 10) /\
  two_formulas (Some "$x-\binom{a}{2}$") x (Q2Qc 10) = formula_cents x (Q2Qc 10) /\
  two_formulas None x (Q2Qc 30) = formula_cents x (Q2Qc 30) /\
  (formula_cents x (Q2Qc 10), formula_cents x (Q2Qc 30)) = (Some [5729196; 1373; 388], Some [17187587; 4118; 1163]).
Proof. repeat split; vm_compute; reflexivity. Qed.
Print Assumptions C69_cache_transparent. Print Assumptions C70_box. Print Assumptions C70_picture. Print Assumptions C70_pixels. Print Assumptions C70_scaling.
