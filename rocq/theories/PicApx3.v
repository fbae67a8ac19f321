(** Proof of the float64 picture bounds: expressions. *)
From Coq Require Import ZArith String Ascii List Bool Lia QArith Qcanon Qreals Reals Lqa Lra Psatz.
From Flocq Require Import Core.Core IEEE754.BinarySingleNaN IEEE754.PrimFloat.
From Verif Require Import Utf8 Token Ast SetTable Parser Symbols PropSymbols TreeSpec Arith Exact OrderLaws Box Ship ShipSpec ShipFacts ShipFacts2
  PackSpec PackFacts ExactFacts PropPack PropShip Mtex MtexTable MtexSpec FracSpec MtexFacts MtexFacts2 MtexFacts4 MtexFacts5 PropMtex ReadSpec ReadFacts
  RadFacts GeomSpec GeomFacts GeomFacts2 SizeSpec SizeFacts Float64Facts PropError PropRows PropCost PicSpec Apx ApxSpec SizeApx TtfRound PicApxSpec PicApx PicApx2 PicApxBar.
From Coq Require Import Floats Lra.
Import SizeSpec ApxSpec.
Import ListNotations.
Local Open Scope string_scope.
Local Open Scope list_scope.
Local Open Scope R_scope.

Lemma levels_most l : (fix most l := match l with [] => O | x :: l' => Nat.max (levels x) (most l') end) l = levels_of l.
Proof. induction l as [|x l IH]; [reflexivity|]. unfold levels_of. cbn [map fold_right]. fold (levels_of l). now rewrite <- IH. Qed.
Lemma levels_in l d : (levels_of l <= d)%nat -> Forall (fun n => (levels n <= d)%nat) l.
Proof. induction l as [|x l IH]; [constructor|]. unfold levels_of. cbn [map fold_right]. fold (levels_of l). intros H. constructor; [lia|]. apply IH. lia. Qed.

Section PicApx3.
Context {S : Type}.
Variable range : Symbols.gset -> list string.
Variable be : @backend float64 S.
Variable parse_float : string -> option float.
Variable M : measures.
Variables (expr : string) (size dpi : Qc) (fsize fdpi : float) (B N : R).
Variables (fox foy : float) (rox roy no : R).
Notation tnode := (@Box.tnode float64).
Notation state := (@Box.state float64).
Notation face := (face size).
Hypothesis FR : fair range.
Hypothesis MB : measured64 B M size dpi fsize fdpi be parse_float.
Hypothesis SB : Rabs (real size) <= B.
Hypothesis B1 : 1 <= B.
Hypothesis BM : B <= bpow radix2 900.
Hypothesis N1 : 1 <= N.
Hypothesis NM : N <= bpow radix2 26.
Hypothesis NBIG : 512 <= N.
Notation ap := (Apx.ap B N).
Hypothesis AOX : ap 1 fox rox.
Hypothesis AOY : ap no foy roy.
Hypothesis NO : 0 <= no.
Lemma N128 : 128 <= N. Proof. lra. Qed.
Notation shapes := (shapes M expr size dpi).
Notation reps2 := (reps2 M size fsize fdpi B N fox foy rox roy no).
Notation rep2 := (rep2 M size fsize fdpi B N fox foy rox roy no).
Notation hb := (hb fdpi B N fox foy rox roy no).
Notation stt typ := (SizeApx.at_font fdpi (SizeApx.fface fsize typ)).
(** The factor of position errors for fractions of depth [d]. *)
Definition KK (d : nat) : R := 6 * INR d + 1.
Lemma KK1 d : 1 <= KK d. Proof. unfold KK. pose proof (pos_INR d). lra. Qed.
Lemma KK_S d : KK d + 6 = KK (Datatypes.S d). Proof. unfold KK. rewrite S_INR. ring. Qed.

(** ** The visitor *)
Notation go := (go range be parse_float expr).
Definition grows (d : nat) (ps : bool -> string -> list shape) (f : @visitor float64 -> Box.M S (@visitor float64)) (c : R) : Prop := forall ns typ m s v' s',
  f (mk_visitor ns (stt typ) m) s = LOk (v', s') ->
  exists new W, v' = mk_visitor (ns ++ new) (stt typ) m /\ reps2 (KK d) (ps m typ) new W /\ W <= c.
Lemma g_mfold d {X} (f : X -> visitor -> Box.M S visitor) (ps : X -> bool -> string -> list shape) c l :
  (forall x, In x l -> grows d (ps x) (f x) (c x)) -> grows d (fun m typ => flat_map (fun x => ps x m typ) l) (mfold f l) (sumR c l).
Proof.
  induction l as [|x l IH]; intros H ns typ m s v' s' E; cbn [mfold] in E.
  - apply ret_ok in E as [-> _]. exists [], 0. rewrite app_nil_r. split; [reflexivity|]. split; [constructor|cbn; lra].
  - apply bind_ok in E as (v1 & s1 & E1 & E). apply (H x (or_introl eq_refl)) in E1 as (n1 & W1 & -> & F1 & L1).
    apply IH in E as (n2 & W2 & -> & F2 & L2); [|intros; apply H; now right].
    exists (n1 ++ n2), (W1 + W2). rewrite app_assoc. split; [reflexivity|]. cbn [flat_map]. split; [now apply reps2_app|]. cbn [sumR fold_right]. fold (sumR c l). lra.
Qed.
Lemma g_push d (ps : bool -> string -> list shape) (k : state -> bool -> Box.M S tnode) c :
  (forall typ m s t s', k (stt typ) m s = LOk (t, s') -> exists W, reps2 (KK d) (ps m typ) [t] W /\ W <= c) ->
  grows d ps (fun v => mbind (k (v_state v) (v_math v)) (fun t => mret (push t v))) c.
Proof.
  intros H ns typ m s v' s' E. cbn [v_state v_math] in E. apply bind_ok in E as (t & s1 & E1 & E). apply ret_ok in E as [-> _].
  apply H in E1 as (W & F & L). exists [t], W. split; [reflexivity|]. split; assumption.
Qed.
Lemma one_solid d b t n : hb (KK d) t b n -> reps2 (KK d) [(Solid (fst b), snd b)] [t] (n + 37 + 1).
Proof.
  intros H. pose proof (hb_ge _ _ _ _ _ _ _ _ _ _ _ _ H). apply reps2_one. apply hb_rep2; try first [assumption|exact N128|apply KK1]; [|lra].
  eapply hb_more; try eassumption; try apply KK1. lra.
Qed.
Definition row_hb2 := fun d => row_hb be parse_float M size dpi fsize fdpi B N fox foy rox roy no MB B1 BM N1 NM N128 (KK d) (KK1 d).

Definition sym2 := fun d => symbol2 range be parse_float M expr size dpi fsize fdpi B N fox foy rox roy no FR MB SB B1 BM N1 NM N128 (KK d) (KK1 d) AOX AOY.
Definition ch2 := fun d => char_rep2 be parse_float M size dpi fsize fdpi B N fox foy rox roy no MB SB B1 BM N1 NM N128 (KK d) (KK1 d) AOX AOY.
Definition chs2 := fun d => chars2 be parse_float M size dpi fsize fdpi B N fox foy rox roy no MB SB B1 BM N1 NM N128 (KK d) (KK1 d) AOX AOY.
Definition hs2 := fun d => handle_space2 be parse_float M size dpi fsize fdpi B N fox foy rox roy no MB B1 BM N1 NM N128 (KK d).
Definition sp2 := fun d => rep_space be M size fsize fdpi B N fox foy rox roy no B1 BM N1 NM N128 (KK d).

Definition fits (z : Z) : Prop := 1024 * IZR z + 1024 <= N.
Definition gz (n : node) : Prop := forall d, fits (cost n) -> unresized n -> (levels n <= d)%nat ->
  forall w, grows d (fun m typ => shapes w m typ n) (go w n) (256 * IZR (cost n)).
Lemma fits_le a b : fits b -> (a <= b)%Z -> fits a.
Proof. unfold fits. intros H L. apply IZR_le in L. lra. Qed.
Lemma fits_in l x : fits (PropCost.total cost l) -> In x l -> fits (cost x).
Proof.
  intros F I. eapply fits_le; [exact F|]. clear F. induction l as [|y l IH]; [destruct I|]. rewrite total_cons.
  pose proof (total_nonneg cost l cost_nonneg). pose proof (cost_nonneg y). destruct I as [->|I]; [lia|]. apply IH in I. lia.
Qed.
Lemma fold_size w d l : Forall gz l -> Forall unresized l -> (levels_of l <= d)%nat -> fits (PropCost.total cost l) ->
  grows d (fun m typ => flat_map (shapes w m typ) l) (mfold (go w) l) (256 * IZR (PropCost.total cost l)).
Proof.
  intros H U FD F. apply levels_in in FD. rewrite <- sum_total. apply (g_mfold d (go w) (fun x m typ => shapes w m typ x)). intros x I. rewrite Forall_forall in H, U, FD.
  apply (H x I); [eapply fits_in; eassumption|now apply U|now apply FD].
Qed.
Lemma list_size d l typ m s t s' : Forall gz l -> Forall unresized l -> (levels_of l <= d)%nat -> fits (PropCost.total cost l) ->
  handle_list be (go true) l (stt typ) m s = LOk (t, s') ->
  hb (KK d) t (box_of M (flat_map (shapes true m typ) l)) (256 * IZR (PropCost.total cost l) + 2).
Proof.
  intros H U FD F E. unfold handle_list in E. apply bind_ok in E as (v & s1 & E1 & E).
  apply (fold_size true d l H U FD F) in E1 as (new & W & -> & F2 & L). unfold fits in F. pose proof (total_nonneg cost l cost_nonneg) as P. apply IZR_le in P.
  eapply hb_more; [exact B1|exact N1|apply KK1|eapply row_hb2; [exact F2|lra|exact E]|lra].
Qed.
Lemma fits_N z : fits z -> (0 <= z)%Z -> 512 <= N. Proof. unfold fits. intros H L. apply IZR_le in L. lra. Qed.
Lemma frac_size d sty name p (l : list node) typ m s t s' :
  (forall z, In z l -> Forall gz (list_children z)) -> (5 <= zlen name)%Z -> one_of ["\frac"; "\dfrac"; "\tfrac"; "\overline"] name = true ->
  fits (cost (NMacro (Some (p, name)) l)) ->
  fold_right (fun x p => unresized x /\ p) True l -> (levels (NMacro (Some (p, name)) l) <= d)%nat ->
  handle_frac be (go true) sty l (stt typ) m s = LOk (t, s') ->
  exists a1 l1 b1 a2 l2 b2 l', l = NArg a1 l1 b1 :: NArg a2 l2 b2 :: l' /\
    let sz b := match sty with DisplayStyle => b | TextStyle => small b end in
    exists W, reps2 (KK d) [frac_shape M (line M (face typ)) (line M (face typ)) (axis M size) (sz (box_of M (flat_map (shapes true m typ) l1))) (sz (box_of M (flat_map (shapes true m typ) l2)))] [t] W
      /\ W <= 256 * IZR (cost (NMacro (Some (p, name)) l)).
Proof.
  intros Q NM' IF F U FD E. unfold handle_frac in E. apply bind_ok in E as (th & s1 & E1 & E).
  destruct MB as (_ & _ & _ & _ & _ & ML & _). apply ML in E1 as (TR & TH & _); [|reflexivity]. unfold handle_frac_args in E.
  destruct l as [|[| | |a l1 b1| | | | | | | |] [|[| | |a2 l2 b2| | | | | | | |] l]]; try discriminate E.
  apply bind_ok in E as (num & s2 & E2 & E). apply bind_ok in E as (den & s3 & E3 & E).
  cbn [fold_right unresized] in U. destruct U as (U1 & U2 & U3). apply unresized_all in U1, U2.
  assert (C : (cost (NMacro (Some (p, name)) (NArg a l1 b1 :: NArg a2 l2 b2 :: l)) >= zlen name + 2 + PropCost.total cost l1 + PropCost.total cost l2)%Z).
  { cbn [cost]. rewrite !total_cons. cbn [cost]. pose proof (total_nonneg cost l cost_nonneg). lia. }
  set (c := cost _) in *. pose proof (total_nonneg cost l1 cost_nonneg) as C1. pose proof (total_nonneg cost l2 cost_nonneg) as C2.
  cbn [levels] in FD. rewrite IF in FD. rewrite !levels_most in FD.
  destruct d as [|d]; [lia|].
  apply (list_size d) in E2; [|apply (Q _ (or_introl eq_refl))|exact U1|lia|eapply fits_le; [exact F|lia]].
  apply (list_size d) in E3; [|apply (Q _ (or_intror (or_introl eq_refl)))|exact U2|lia|eapply fits_le; [exact F|lia]].
  assert (C' : (7 + PropCost.total cost l1 + PropCost.total cost l2 <= c)%Z) by lia. apply IZR_le in C', C1, C2. rewrite !plus_IZR in C'. unfold fits in F.
  pose proof (genfrac_hb be parse_float M size dpi fsize fdpi B N fox foy rox roy no MB B1 BM N1 NM N128 AOX AOY NO (KK d) (KK1 d) _ _ _ _ _ _ _ _ _ _ _ _ _ E2 E3 TR TH ltac:(lra) E) as HX.
  rewrite KK_S in HX. exists a, l1, b1, a2, l2, b2, l. split; [reflexivity|]. cbv zeta. eexists. split; [apply (one_solid _ (_, _)); exact HX|]. lra.
Qed.

Lemma hspace_ok typ v q k s t s' : parse_float v = Some q -> k = number M v -> make_space be (stt typ) q s = LOk (t, s') -> SizeApx.rep M size fsize fdpi B N (Solid (gap (em M size * k)%Qc)) t 4.
Proof.
  intros PF -> E. destruct MB as (_ & _ & _ & _ & _ & _ & MN). apply MN in PF as (FQ & VQ & BN & BQ).
  replace 4 with (3 + 1) by ring. eapply (space_ok be parse_float M size dpi fsize fdpi B N MB B1 BM N1 NM typ q); [exact E|].
  intros x (FX & _ & BX) SX. pose proof u_pos. pose proof (uE B N B1 N1). pose proof (E_pos B N B1 N1). pose proof (Rabs_pos (real (em M size))).
  rewrite real_mult in BQ. rewrite <- VQ in BQ, BN. rewrite real_mult, <- VQ. set (e := real (em M size)) in *. set (k := R_of q) in *.
  assert (D : Rabs ((R_of x - e) * k) <= 16 * (B * u)).
  { rewrite Rabs_mult. eapply Rle_trans; [apply Rmult_le_compat_r; [apply Rabs_pos|exact SX]|].
    rewrite Rabs_mult in BQ. replace (B * u) with (B * / 2 ^ 53) by (now rewrite u_val). lra. }
  assert (BU : B * u <= B). { pose proof u_8192. pose proof (Rmult_le_compat_l B u 1). lra. }
  assert (RR : Rabs (R_of x * k) <= 17 * B).
  { replace (R_of x * k) with ((R_of x - e) * k + e * k) by ring. eapply Rle_trans; [apply Rabs_triang|]. lra. }
  destruct (mul_near x q FX FQ) as [FM EM].
  { fold k. eapply Rle_trans; [exact RR|]. apply Rle_trans with (bpow radix2 5 * bpow radix2 900); [change (bpow radix2 5) with 32; lra|rewrite <- bpow_plus; apply bpow_le; lia]. }
  fold k in EM. split; [exact FM|]. split; [lra|]. split; [lra|].
  replace (R_of (x * q)%float - e * k) with ((R_of (x * q)%float - R_of x * k) + (R_of x - e) * k) by ring.
  eapply Rle_trans; [apply Rabs_triang|].
  assert (u * Rabs (R_of x * k) <= u * (17 * B)) by (apply Rmult_le_compat_l; lra).
  assert (32 * (B * u) <= N * (B * u)) by (apply Rmult_le_compat_r; [apply Rmult_le_pos; lra|lra]).
  assert (1 * u <= B * u) by (apply Rmult_le_compat_r; lra). lra.
Qed.
Lemma gz_both n : gz n /\ Forall gz (list_children n).
Proof.
  assert (FC : forall l, Forall (fun n => gz n /\ Forall gz (list_children n)) l -> Forall gz l).
  { intros l H. eapply Forall_impl; [|exact H]. cbn. tauto. }
  assert (BAD : forall n0, (forall w v s, exists e, go w n0 v s = LPanic e) -> gz n0).
  { intros n0 H d _ _ _ w ns typ m s v' s' E. destruct (H w (mk_visitor ns (stt typ) m) s) as (e & E2). rewrite E2 in E. discriminate E. }
  assert (NONE : forall d (v : @visitor float64) ns typ m c, (0 <= c)%Z -> v = mk_visitor ns (stt typ) m -> exists new W, v = mk_visitor (ns ++ new) (stt typ) m /\ reps2 (KK d) [] new W /\ W <= 256 * IZR c).
  { intros d v ns typ m c P ->. exists [], 0. rewrite app_nil_r. split; [reflexivity|]. split; [constructor|]. apply IZR_le in P. lra. }
  induction n using node_ind'; cbn [list_children]; split; auto; try (apply Forall_nil);
    try (apply BAD; intros [] v s0; eexists; reflexivity).
  - intros d _ _ _ [] ns typ m s v' s' E; [discriminate E|]. apply ret_ok in E as [-> _]. apply NONE; [reflexivity|reflexivity].
  - intros d F U FD w ns typ m s v' s' E. cbn [cost] in *. cbn [levels] in FD. rewrite levels_most in FD.
    assert (F' : fits (PropCost.total cost l)) by (eapply fits_le; [exact F|lia]).
    pose proof (total_nonneg cost l cost_nonneg) as P. destruct w; cbn [Mtex.go] in E.
    + apply (fold_size true d l (FC _ H) (unresized_all _ U) FD F') in E as (new & W & -> & F2 & L).
      exists new, W. split; [reflexivity|]. split; [exact F2|]. rewrite plus_IZR. lra.
    + apply ret_ok in E as [-> _]. apply NONE; [lia|reflexivity].
  - destruct nm as [[p name]|]; [|apply BAD; intros w v s; eexists; reflexivity].
    intros d F U FD w ns typ m s v' s' E. cbn [Mtex.go] in E.
    apply bind_ok in E as (h & s1 & EH & E). apply mlift_ok in EH. destruct h as [h|]; [|discriminate E].
    apply (handler_cases _ FR) in EH.
    revert ns typ m s1 v' s' E.
    apply (g_push d (fun m typ => shapes w m typ (NMacro (Some (p, name)) l))
             (fun st m => handle_macro range be parse_float expr (go true) h p name l st m)).
    intros typ m s0 t s' E. clear s.
    assert (Q : forall z, In z l -> Forall gz (list_children z)).
    { intros z I. rewrite Forall_forall in H. now destruct (H z I). }
    clear H FC BAD NONE. cbn [unresized] in U. destruct U as [[NB NS] U].
    assert (CC : (2 <= cost (NMacro (Some (p, name)) l) /\ zlen name <= cost (NMacro (Some (p, name)) l))%Z).
    { cbn [cost]. pose proof (total_nonneg cost l cost_nonneg). lia. }
    destruct CC as [C2 CL]. pose proof (fits_N _ F ltac:(lia)) as N512. apply IZR_le in C2.
    assert (SN : forall h0, one_of ("\hspace" :: spacing_names) h0 = false -> one_of spacing_names h0 = false /\ String.eqb h0 "\hspace" = false).
    { intros h0. unfold one_of. cbn [existsb]. intros HH. apply orb_false_iff in HH. tauto. }
    destruct h; cbn [Mtex.handle_macro] in E.
    + cbn [PicSpec.shapes]. rewrite EH. apply (hs2 d) in E. eexists. split; [apply reps2_one; exact E|lra].
    + destruct EH as (E1 & E2 & E3). apply SN in E1 as [E1 E4]. cbn [PicSpec.shapes]. rewrite E1, E4, E2.
      unfold one_of, frac_names in E3. cbn [existsb] in E3.
      repeat match type of E3 with _ || _ = false => apply orb_false_iff in E3 as [? E3] end.
      unfold one_of. cbn [existsb].
      repeat match goal with HH : String.eqb name _ = false |- _ => rewrite HH; clear HH end. cbn [orb].
      apply (sym2 d) in E as (W & F2 & L); [|lra]. exists W. split; [exact F2|lra].
    + subst name. unfold handle_custom_space in E. cbn [PicSpec.shapes].
      change (one_of spacing_names "\hspace") with false. change (String.eqb "\hspace" "\hspace") with true. cbv iota.
      destruct l as [|[] l]; try discriminate E.
      match type of E with context [match ?x with [] => _ | _ => _ end] => destruct x as [|[] ?]; try discriminate E end.
      match type of E with context [parse_float ?x] => destruct (parse_float x) as [q|] eqn:PF; [|discriminate E] end.
      pose proof (hspace_ok _ _ _ _ _ _ _ PF eq_refl E) as R. eexists. split; [apply reps2_one; eapply (sp2 d); [exact R|lra|exact E]|lra].
    + destruct EH as [E1 E2]. apply SN in E1 as [E1 E4]. cbn [PicSpec.shapes]. rewrite E1, E4, E2.
      unfold handle_function in E. apply bind_ok in E as (ts & s1 & E5 & E).
      change (set_type "rm" (stt typ)) with (stt "rm") in E5. apply (chs2 d) in E5.
      pose proof (INR_letters (sdrop 1 name)) as IL. pose proof (sdrop_zlen 1 name) as SZ. pose proof (zlen_nonneg name).
      assert (CZ : (zlen (sdrop 1 name) <= cost (NMacro (Some (p, name)) l))%Z) by lia. apply IZR_le in CZ. unfold fits in F.
      eexists. split; [apply (one_solid d (box_of M _)); eapply row_hb2; [exact E5|lra|exact E]|lra].
    + subst name. apply (frac_size d _ "\frac" p) in E as (a1 & l1 & b1 & a2 & l2 & b2 & l' & -> & E); auto. cbn; lia.
    + subst name. apply (frac_size d _ "\dfrac" p) in E as (a1 & l1 & b1 & a2 & l2 & b2 & l' & -> & E); auto. cbn; lia.
    + subst name. apply (frac_size d _ "\tfrac" p) in E as (a1 & l1 & b1 & a2 & l2 & b2 & l' & -> & E); auto. cbn; lia.
    + contradiction.
    + contradiction.
    + subst name. unfold handle_overline in E. destruct l as [|x1 l]; [discriminate E|]. destruct x1 as [| | |a b z| | | | | | | |]; try discriminate E.
      cbn [PicSpec.shapes]. change (one_of spacing_names "\overline") with false. change (String.eqb "\overline" "\hspace") with false. cbv iota.
      apply bind_ok in E as (body & s1 & E1 & E). cbn [fold_right unresized] in U. destruct U as (U1 & _). apply unresized_all in U1.
      cbn [levels] in FD. change (one_of ["\frac"; "\dfrac"; "\tfrac"; "\overline"] "\overline") with true in FD. cbv iota in FD. rewrite !levels_most in FD.
      destruct d as [|d]; [lia|].
      assert (C : (9 + 1 + PropCost.total cost b <= cost (NMacro (Some (p, "\overline")) (NArg a b z :: l)))%Z).
      { cbn [cost]. rewrite !total_cons. cbn [cost]. pose proof (total_nonneg cost l cost_nonneg). change (zlen "\overline") with 9%Z. lia. }
      set (c := cost _) in *. pose proof (total_nonneg cost b cost_nonneg) as CB.
      apply (list_size d) in E1; [|apply (Q _ (or_introl eq_refl))|exact U1|lia|eapply fits_le; [exact F|lia]].
      unfold fits in F. apply IZR_le in C, CB. rewrite !plus_IZR in C. 
      apply (hb_more fdpi B N fox foy rox roy no B1 N1 (KK d) (KK1 d)) with (m := 256 * IZR (PropCost.total cost b) + 40) in E1; [|lra].
      unfold box_of in E1.
      pose proof (overline_hb64 be parse_float M size dpi fsize fdpi B N fox foy rox roy no MB B1 BM N1 NM N512 AOX AOY NO (KK d) (KK1 d) _ _ _ _ typ _ _ _ E1 ltac:(lra) ltac:(lra) E) as HX.
      rewrite KK_S in HX. eexists. split; [apply (one_solid _ (_, _)); exact HX|lra].
  - intros dep F U FD w ns typ m s v' s' E. cbn [levels] in FD. rewrite levels_most in FD.
    cbn [Mtex.go] in E. apply bind_ok in E as (v1 & s1 & E1 & E).
    apply ret_ok in E as [-> _]. cbn [v_nodes v_state v_math cost] in *. change (set_type "it" (stt typ)) with (stt "it") in E1.
    apply (fold_size false dep l (FC _ H) (unresized_all _ U) FD) in E1 as (new & W & -> & F2 & L); [|eapply fits_le; [exact F|lia]].
    exists new, W. cbn [v_nodes v_state]. split; [reflexivity|]. split; [exact F2|]. rewrite plus_IZR. lra.
  - intros d F U FD w ns typ m s0 v' s' E. cbn [Mtex.go v_state v_math cost] in *. apply bind_ok in E as (ts & s1 & E1 & E).
    apply bind_ok in E as (t & s2 & E2 & E). apply ret_ok in E as [-> _].
    pose proof (INR_letters s) as IL. assert (CZ : (1 <= Z.max 1 (zlen s) /\ zlen s <= Z.max 1 (zlen s))%Z) by lia. destruct CZ as [C1 C2]. apply IZR_le in C1, C2. unfold fits in F.
    apply (chs2 d) in E1. exists [t]. eexists. split; [reflexivity|]. split; [apply (one_solid d (box_of M _)); eapply row_hb2; [exact E1|lra|exact E2]|lra].
  - intros d F U FD w ns typ m s0 v' s' E. cbn [Mtex.go cost] in *. change (rune_strings s) with (ReadSpec.letters s) in E.
    pose proof (INR_letters s) as IL. assert (CZ : (1 <= Z.max 1 (zlen s) /\ zlen s <= Z.max 1 (zlen s))%Z) by lia. destruct CZ as [C1 C2]. apply IZR_le in C1, C2. unfold fits in F.
    apply (g_mfold d (fun x v => mbind (handle_symbol range be expr x 0 (v_state v) (v_math v)) (fun t => mret (push t v)))
             (fun x m typ => symbol_shape M expr size m typ x 0) (fun _ => 170) (ReadSpec.letters s)) in E as (new & W & -> & F2 & L).
    + exists new, W. split; [reflexivity|]. split; [exact F2|]. rewrite sum_const in L. pose proof (pos_INR (List.length (ReadSpec.letters s))). lra.
    + intros x _. apply (g_push d (fun m typ => symbol_shape M expr size m typ x 0) (fun st m => handle_symbol range be expr x 0 st m)).
      intros * E0. apply (sym2 d) in E0 as (W & F2 & L); [|lra]. exists W. split; [exact F2|lra].
  - intros d F U FD w ns typ m s0 v' s' E. cbn [Mtex.go v_math v_state cost] in *. cbn [PicSpec.shapes].
    assert (CZ : (1 <= Z.max 1 (zlen s))%Z) by lia. apply IZR_le in CZ. unfold fits in F. destruct m.
    + apply bind_ok in E as (h & s1 & EH & E). apply mlift_ok in EH. destruct h as [h|]; [|discriminate E].
      apply (handler_cases _ FR) in EH.
      apply bind_ok in E as (t & s2 & E2 & E). apply ret_ok in E as [-> _]. exists [t].
      destruct h; cbn [handle_sym] in E2; try discriminate E2.
      * rewrite EH. apply (hs2 d) in E2. eexists. split; [reflexivity|]. split; [apply reps2_one; exact E2|lra].
      * destruct EH as (E1 & _ & _). unfold one_of in E1. cbn [existsb] in E1. apply orb_false_iff in E1 as [_ E1].
        unfold one_of at 1. rewrite E1. apply (sym2 d) in E2 as (W & F2 & L); [|lra]. exists W. split; [reflexivity|]. split; [exact F2|lra].
    + apply bind_ok in E as (c & s2 & E2 & E). apply ret_ok in E as [-> _]. exists [TChar c]. eexists. split; [reflexivity|].
      apply (ch2 d) in E2. split; [apply reps2_one; exact E2|lra].
Qed.

Lemma typeset_hb d l s t s' : Forall unresized l -> (levels_of l <= d)%nat -> fits (1 + PropCost.total cost l) ->
  typeset range be parse_float expr l fsize fdpi s = LOk (t, s') ->
  hb (KK d) t (box_of M (flat_map (shapes true false "rm") l)) (256 * IZR (1 + PropCost.total cost l) + 2).
Proof.
  unfold typeset. intros U FD F E. apply bind_ok in E as (v & s1 & E1 & E).
  assert (U' : unresized (NList l)) by (cbn [unresized]; clear - U; induction U; cbn [fold_right]; auto).
  destruct (gz_both (NList l)) as [G _]. change (mk_state (mk_font "default" "rm" fsize) fdpi) with (stt "rm") in E1.
  apply (G d F U') in E1 as (new & W & -> & F2 & L); [|cbn [levels]; now rewrite levels_most].
  cbn [cost] in L. unfold fits in F. pose proof (total_nonneg cost l cost_nonneg) as P.
  assert (P' : (0 <= 1 + PropCost.total cost l)%Z) by lia. apply IZR_le in P'.
  eapply hb_more; [exact B1|exact N1|apply KK1|eapply row_hb2; [exact F2|lra|exact E]|lra].
Qed.
End PicApx3.
