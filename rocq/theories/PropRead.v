(** C59: what a drawn expression shows (ReadSpec.v). *)
From Coq Require Import ZArith String Ascii List Bool Lia QArith Qcanon.
From Verif Require Import Utf8 Token Ast SetTable Parser Symbols PropSymbols TreeSpec Arith Exact ExactFacts PropParse Box Ship ShipSpec ShipFacts ShipFacts2
  PropShip Mtex MtexSpec MtexFacts MtexFacts2 PropMtex ReadSpec ReadFacts.
Import ListNotations.
Local Open Scope string_scope.
Local Open Scope list_scope.
Local Open Scope Z_scope.

(** What a drawing call shows: a glyph, or a rectangle. *)
Definition what {A : arith} (e : @event A) : option (@Box.font A * string * Arith.F A) :=
  match e with EGlyph _ _ ft s d => Some (ft, s, d) | ERect _ _ _ _ => None end.

Section Draws.
Context {A : arith}.
Notation tnode := (@Box.tnode A).
Notation leaf := (@leaf A).
Definition seen (x : leaf) : list (option (@Box.font A * string * Arith.F A)) :=
  match x with LG ft s d _ => [Some (ft, s, d)] | LR b => if vvisible (TRule b) then [None] else [] | LBad => [] end.
Definition good (x : leaf) : Prop := match x with LBad => False | _ => True end.

Lemma what_each (f : list tnode -> tnode -> list (@event A)) g l :
  Forall (fun y => forall pre, map (what (A:=A)) (f pre y) = g y) l -> forall pre, map (what (A:=A)) (each f pre l) = flat_map g l.
Proof. induction 1 as [|y l H _ IH]; intros; cbn [each flat_map]; [reflexivity|]. now rewrite map_app, H, IH. Qed.

Lemma draws_leaves ox oy (t : tnode) : forall vert bx x v, Forall good (leaves vert t) ->
  map what (draws ox oy vert bx t x v) = flat_map seen (leaves vert t).
Proof.
  induction t as [b|c|c|b|g|sz w|k b sh gs l IH] using tnode_ind'; intros vert bx x v G; try reflexivity.
  rewrite draws_unfold, leaves_TL in *.
  rewrite (what_each _ (fun y => flat_map seen (leaf1 vert y))).
  - unfold lf. clear. induction l as [|y l IH]; cbn [flat_map]; [reflexivity|]. now rewrite flat_map_app, IH.
  - rewrite Forall_forall in IH |- *. intros y Hin pre. specialize (IH y Hin).
    assert (Gy : Forall good (leaf1 vert y)).
    { apply Forall_forall. intros z Iz. rewrite Forall_forall in G. apply G. apply in_flat_map. eauto. }
    destruct vert; [unfold vdraw|unfold hdraw];
      (destruct y as [b'|c'|c'|b'|g'|sz' w'|k' b' sh' gs' xs]; try reflexivity);
      try (inversion Gy; subst; contradiction).
    + cbn [leaf1 flat_map seen]. destruct (vvisible _); reflexivity.
    + destruct k'; try (inversion Gy; subst; contradiction); now apply IH.
    + destruct k'; try (inversion Gy; subst; contradiction); now apply IH.
Qed.
End Draws.

Lemma marks_seen {A : arith} (th : bool -> Arith.F A -> Prop) st ms ls :
  (forall b x, th b (b_height x) -> b_depth x = b_height x -> vvisible (A:=A) (TRule x) = b) ->
  Forall2 (shw th st) ms ls -> f_name (st_font st) = "default" ->
  Forall2 (shown (f_size (st_font st)) (st_dpi st)) (filter is_seen ms) (flat_map seen ls).
Proof.
  intros TH H N. induction H as [|m x ms ls H _ IH]; [constructor|]. cbn [filter flat_map].
  destruct m as [sym typ k|sym typ|b], x as [ft s d lv|r|]; cbn in H; try contradiction.
  - destruct H as (-> & -> & -> & _). rewrite N. apply (Forall2_app (l1:=[_])); [|exact IH].
    constructor; [|constructor]. now cbn.
  - destruct H as (-> & -> & E1 & E2). apply (Forall2_app (l1:=[_])); [|exact IH].
    constructor; [|constructor]. cbn. rewrite N in E1. auto.
  - destruct H as [T1 T2]. cbn [seen is_seen]. rewrite (TH b r T1 T2). destruct b; [|exact IH].
    constructor; [exact I|exact IH].
Qed.
Lemma marks_glyphs {A : arith} (th : bool -> Arith.F A -> Prop) st ms ls :
  Forall2 (shw th st) ms ls -> f_name (st_font st) = "default" ->
  Forall2 (shown (f_size (st_font st)) (st_dpi st)) (filter is_glyph ms)
    (filter (fun g => match g with Some _ => true | None => false end) (flat_map seen ls)).
Proof.
  intros H N. induction H as [|m x ms ls H _ IH]; [constructor|]. cbn [filter flat_map].
  destruct m as [sym typ k|sym typ|b], x as [ft s d lv|r|]; cbn in H; try contradiction.
  - destruct H as (-> & -> & -> & _). rewrite N. cbn [is_glyph seen app filter]. constructor; [|exact IH]. now cbn.
  - destruct H as (-> & -> & E1 & E2). cbn [is_glyph seen app filter]. constructor; [|exact IH]. cbn. rewrite N in E1. auto.
  - cbn [is_glyph seen]. destruct (vvisible _); exact IH.
Qed.

Section Read.
Context {A : arith} {St : Type}.
Variables (range : Symbols.gset -> list string) (be : @backend A St) (parse_float : string -> option (Arith.F A)).
Variable uni_letter : Z -> bool.

Lemma parse_inv expr size dpi s t err s' : mtex_parse uni_letter range be parse_float expr size dpi s = Some (LOk ((t, err), s')) ->
  exists l, parse_expr uni_letter expr = Ok l /\ typeset range be parse_float expr l size dpi s = LOk (t, s').
Proof.
  unfold mtex_parse. destruct (parse_expr uni_letter expr) as [l| |]; try discriminate.
  intros [= E]. apply bind_ok in E as (x & s1 & E1 & E). apply ret_ok in E as [[= -> ->] ->]. eauto.
Qed.

Lemma drawn_marks (th : bool -> Arith.F A -> Prop) expr size dpi s l t s' ox oy t' st :
  fair range -> bar_rules be th ->
  typeset range be parse_float expr l size dpi s = LOk (t, s') -> ship_call ox oy t = LOk (t', st) ->
  exists ls, Forall2 (shw th (mk_state (mk_font "default" "rm" size) dpi)) (flat_map (reading true false "rm" 0) l) ls /\
    map what (s_out st) = flat_map seen ls.
Proof.
  intros FR BR E SC. pose proof (typeset_reading be th BR range FR _ _ _ _ _ _ _ _ E) as R.
  unfold typeset in E. apply bind_ok in E as (v & s1 & _ & E). apply hlist_of_shape in E as (b & gs & l' & ->).
  apply ship_ok_inv in SC as (_ & _ & ->). cbn [s_out].
  eexists. split; [exact R|]. apply draws_leaves.
  clear -R. cbn [leaf1 is_vlist] in R. revert R.
  match goal with |- Forall2 _ ?ms ?ls -> _ => change (Forall2 (shw th (mk_state (mk_font "default" "rm" size) dpi)) ms ls -> Forall good ls); generalize ms, ls end.
  intros ms ls R. induction R as [|m x ms' ls' H _ IH]; constructor; auto.
  destruct x; cbn; auto. destruct m; contradiction.
Qed.
End Read.

(** The marks of an expression: those of its elements, set in the roman face at
    full size, outside math. *)
Definition marks (l : list node) : list mark := flat_map (reading true false "rm" 0) l.

(** Whatever the arithmetic, the fonts and the size: the glyphs drawn for an
    expression are the symbols the expression shows, in reading order, each in its
    face and size, and nothing else. *)
Theorem C59_glyphs : forall (A : arith) (St : Type) (be : @backend A St) range parse_float uni_letter expr l size dpi s t err s' ox oy t' st,
  fair range ->
  parse_expr uni_letter expr = Ok l ->
  mtex_parse uni_letter range be parse_float expr size dpi s = Some (LOk ((t, err), s')) ->
  ship_call ox oy t = LOk (t', st) ->
  Forall2 (shown size dpi) (filter is_glyph (marks l))
    (filter (fun g => match g with Some _ => true | None => false end) (map what (s_out st))).
Proof.
  intros * FR P E SC. apply parse_inv in E as (l0 & P' & E). rewrite P in P'. injection P' as <-.
  assert (BR : bar_rules be (fun _ _ => True)) by (constructor; auto).
  destruct (drawn_marks range be parse_float _ expr size dpi s l t s' ox oy t' st FR BR E SC) as (ls & R & ->).
  exact (marks_glyphs _ _ _ _ R eq_refl).
Qed.

(** In exact arithmetic, with fonts whose rules have a positive thickness: the
    drawing calls are exactly the marks of the expression, in order: glyphs, bars
    of fractions, radicals and overlines; the bar of a binomial is not drawn. *)
Definition pos_thick (b : bool) (x : xq) : Prop := if b then exists q, x = Fin q /\ (0 < q)%Qc else x = Fin 0%Qc.
Lemma exact_bars {St} (be : @backend exact St) :
  (forall ft d s t s', be_underline be ft d s = LOk (t, s') -> exists q, t = Fin q /\ (0 < q)%Qc) -> bar_rules be pos_thick.
Proof.
  intros U. constructor.
  - intros ft d s t s' E. apply U in E as (q & -> & P). exists (Q2Qc (1 # 2) * q)%Qc. split; [reflexivity|].
    rewrite <- (Qcmult_0_l q). apply Qcmult_lt_compat_r; [assumption|reflexivity].
  - intros E. vm_compute in E. discriminate E.
  - cbn. apply f_equal, Qc_is_canon. reflexivity.
  - intros E. vm_compute in E. discriminate E.
  - rewrite shrink_exact. intros [] x.
    + intros (q & -> & P). exists (q * Q2Qc (7 # 10))%Qc. split; [reflexivity|].
      rewrite <- (Qcmult_0_l (Q2Qc (7 # 10))). apply Qcmult_lt_compat_r; [reflexivity|assumption].
    + intros ->. cbn. apply f_equal, Qc_is_canon. reflexivity.
Qed.
Lemma exact_visible b x : pos_thick b (b_height x) -> b_depth x = b_height x -> vvisible (A:=exact) (TRule x) = b.
Proof.
  intros T E. unfold vvisible. cbn [t_height t_depth]. rewrite E. destruct b.
  - destruct T as (q & -> & P). change (qltb 0%Qc (q + q)%Qc && qltb 0%Qc q = true).
    assert (P2 : (0 < q + q)%Qc).
    { unfold Qclt in *. change (0 < Qred (this q + this q))%Q. rewrite Qred_correct. change (0 < this q)%Q in P. Lqa.lra. }
    apply qltb_iff in P, P2. now rewrite P, P2.
  - rewrite T. reflexivity.
Qed.

Theorem C59_reading : forall (St : Type) (be : @backend exact St) range parse_float uni_letter expr l size dpi s t err s' ox oy t' st,
  fair range ->
  (forall ft d s t s', be_underline be ft d s = LOk (t, s') -> exists q, t = Fin q /\ (0 < q)%Qc) ->
  parse_expr uni_letter expr = Ok l ->
  mtex_parse uni_letter range be parse_float expr size dpi s = Some (LOk ((t, err), s')) ->
  ship_call ox oy t = LOk (t', st) ->
  Forall2 (shown size dpi) (filter is_seen (marks l)) (map what (s_out st)).
Proof.
  intros * FR U P E SC. apply parse_inv in E as (l0 & P' & E). rewrite P in P'. injection P' as <-.
  destruct (drawn_marks range be parse_float _ expr size dpi s l t s' ox oy t' st FR (exact_bars be U) E SC) as (ls & R & ->).
  exact (marks_seen _ _ _ _ exact_visible R eq_refl).
Qed.

(** A case: text, math, a fraction, a radical, a binomial, a function. *)
Definition c59_be : @backend exact unit := {|
  be_metrics _ _ _ _ s := LOk (mk_metrics (Fin (Q2Qc 5)) (Fin (Q2Qc 4)) (Fin (Q2Qc 4)) (Fin (Q2Qc 0)) (Fin (Q2Qc 4)) (Fin (Q2Qc 0)) (Fin (Q2Qc 4)) (Fin (Q2Qc 4)) false, s);
  be_xheight _ _ s := LOk (Fin (Q2Qc 4), s); be_underline _ _ s := LOk (Fin (Q2Qc 1), s);
  be_kern _ _ _ _ _ s := LOk (Fin (Q2Qc 0), s) |}.
Definition c59_texts (x : string) : list string :=
  match mtex_parse ascii_only id_range c59_be (fun _ => None) x (Fin (Q2Qc 10)) (Fin (Q2Qc 72)) tt with
  | Some (LOk ((t, None), _)) =>
    match ship_call (Fin (Q2Qc 0)) (Fin (Q2Qc 0)) t with
    | LOk (_, st) => map (fun e => match what e with Some (ft, s, _) => s ++ ":" ++ f_type ft | None => "---" end)%string (s_out st)
    | LPanic _ => ["panic"]
    end
  | _ => ["refused"]
  end.
Example C59_case :
  c59_texts "a $x\sin\frac{1}{\sqrt[n]{2}}$ \binom{p}{q}b" =
  ["a:rm"; " :rm"; "x:it"; "s:rm"; "i:rm"; "n:rm"; "1:it"; "---"; "n:it"; "\__sqrt__:it"; "---"; "2:it"; " :rm"; "(:rm"; "p:rm";
   "q:rm"; "):rm"; "b:rm"].
Proof. vm_compute. reflexivity. Qed.
Example C59_case_marks : match parse_expr ascii_only "\frac{1}{$x$}" with
  | Ok l => marks l = [Letter "1" "rm" 1; Bar true; Letter "x" "it" 1] | _ => False end.
Proof. vm_compute. reflexivity. Qed.

Print Assumptions C59_glyphs.
Print Assumptions C59_reading.
