(** Proof that pictures stay within the width of their expression (SideSpec.v). *)
From Coq Require Import ZArith String Ascii List Bool Lia QArith Qround Qcanon Lqa.
From Verif Require Import Utf8 Token Ast SetTable Symbols TreeSpec Arith Exact OrderLaws Box Ship
  MtexSpec FracSpec PropMtex ReadSpec GeomSpec GeomFacts SizeSpec SizeFacts PropSize PicSpec PicFacts RoomFacts SideSpec.
Import ListNotations.
Local Open Scope string_scope.
Local Open Scope list_scope.
Local Open Scope Qc_scope.

Lemma snap_double q : 0 <= q -> 0 <= snap q /\ snap q <= q + q.
Proof.
  intros H. destruct (snap_bounds q H) as [B1 B2]. split; [exact B1|].
  destruct (Qclt_le_dec q (Q2Qc (1 # 2))) as [L|L].
  - assert (Z0 : nearest q = 0%Z).
    { unfold nearest. rewrite (proj2 (qltb_false q 0) H). apply Z.le_antisymm.
      - apply Z.lt_succ_r. rewrite Zlt_Qlt. eapply Qle_lt_trans; [apply Qfloor_le|]. unfold Qclt in L. cbn [this Q2Qc] in L. 
        change (Qred (1 # 2)) with (1 # 2) in L. change (inject_Z (Z.succ 0)) with 1%Q. lra.
      - apply (Qfloor_resp_le 0). unfold Qcle in H. change (this 0) with 0%Q in H. lra. }
    unfold snap. rewrite Z0. change (Z.max (-1000000000) (Z.min 1000000000 0)) with 0%Z.
    replace (Q2Qc (inject_Z 0)) with 0 by (apply Qc_is_canon; reflexivity). ql.
  - ql.
Qed.

Section Side.
Variables (M : measures) (size dpi : Qc).
Hypothesis REG : regular M size.
Hypothesis FWD : forward_fonts M size.

(** The figure stays within [w] to the right of its reference point. *)
Definition spans (f : figure) (w : Qc) : Prop :=
  forall k x y, 0 <= k -> Forall (within M x (x + k * w)) (ink dpi k x y f).

Lemma within_mono a b a' b' e : a' <= a -> b <= b' -> within M a b e -> within M a' b' e.
Proof.
  intros A B. destruct e as [[x| | |] ? ? ? ?|[x1| | |] ? [x2| | |] ?]; cbn [within]; try contradiction;
    (intros [H1 H2]; split; [eapply Qcle_trans; eassumption|eapply Qcle_trans; eassumption]).
Qed.
Lemma spans_mono f w w' : spans f w -> w <= w' -> spans f w'.
Proof.
  intros F A k x y K. eapply Forall_impl; [|apply F; exact K]. intros e. pose proof (mul_le k _ _ K A). apply within_mono; ql.
Qed.
Lemma spans_blank w : spans Blank w. Proof. intros k x y K. constructor. Qed.
Lemma spans_join f g w : spans f w -> spans g w -> spans (Join f g) w.
Proof. intros F G k x y K. cbn [ink]. apply Forall_app. split; [now apply F|now apply G]. Qed.
Lemma spans_move f dx dy w : 0 <= dx -> spans f w -> spans (Move dx dy f) (w + dx).
Proof.
  intros D F k x y K. cbn [ink]. pose proof (mul_pos _ _ K D). eapply Forall_impl; [|apply F; exact K]. intros e. apply within_mono; ql.
Qed.
Lemma spans_slide f d w : 0 <= d -> spans f w -> spans (Slide d f) (w + (d + d)).
Proof.
  intros D F k x y K. cbn [ink]. destruct (snap_double (k * d) (mul_pos _ _ K D)) as [S1 S2].
  eapply Forall_impl; [|apply F; exact K]. intros e. apply within_mono; ql.
Qed.
Lemma spans_drop f d w : spans f w -> spans (Drop d f) w.
Proof. intros F k x y K. cbn [ink]. now apply F. Qed.
Lemma spans_small f w : spans f w -> spans (Small f) (Q2Qc (7 # 10) * w).
Proof.
  intros F k x y K. cbn [ink]. eapply Forall_impl; [|apply F, mul_pos; [exact K|discriminate]]. intros e. apply within_mono; ql.
Qed.
Lemma spans_stroke w h : 0 <= w -> spans (Stroke w h) w.
Proof.
  intros W k x y K. cbn [ink]. pose proof (mul_pos _ _ K W). destruct (qltb 0 h); constructor; [|constructor]. cbn [within]. split; ql.
Qed.
Lemma spans_mark s f z m : f_size f = Fin z -> spans (Mark s f) (adv M s f m).
Proof.
  intros F k x y K. cbn [ink]. constructor; [|constructor]. cbn [within]. destruct FWD as (R1 & R2 & _).
  rewrite (R1 s f m), (R2 s f z k F K). split; ql.
Qed.

(** ** Rows *)
Definition cell (p : piece) : Qc := match p with Glyph s f m => adv M s f m | Solid e => x_w e end.
Definition normal (p : piece) : Prop := match p with Glyph _ f _ => f_size f = Fin size | Solid _ => True end.
Definition shape_spans (s : shape) : Prop := spans (snd s) (cell (fst s)) /\ 0 <= cell (fst s) /\ normal (fst s).
Lemma row_head p l : Forall (fun p => 0 <= cell p /\ normal p) (p :: l) -> cell p <= row_width M (p :: l).
Proof.
  revert p. induction l as [|q l IH]; intros p H.
  - destruct p; cbn [row_width cell]; ql.
  - assert (HQ : cell q <= row_width M (q :: l)) by (apply IH; now inversion H).
    apply Forall_cons_iff in H as [[P1 P2] H]. apply Forall_cons_iff in H as [[Q1 Q2] H].
    destruct p as [s f m|e].
    2:{ change (x_w e <= x_w e + row_width M (q :: l)). ql. }
    destruct q as [s' f' m'|e'].
    2:{ change (adv M s f m <= adv M s f m + 0 + row_width M (Solid e' :: l)). ql. }
    change (adv M s f m <= adv M s f m + pair M f s f' s' + row_width M (Glyph s' f' m' :: l)).
    destruct FWD as (R1 & _ & _ & R4). destruct (R4 s f s' f' P2 Q2) as [_ K]. cbn [cell] in Q1, HQ. rewrite (R1 s' f' m') in Q1, HQ. ql.
Qed.
Lemma step_pos p f l : shape_spans (p, f) -> Forall shape_spans l -> 0 <= step M p l.
Proof.
  intros (_ & P1 & P2) H. cbn [fst] in *. destruct p as [s ft m|e]; cbn [step cell normal] in *; [|exact P1].
  destruct l as [|[[s' f' m'|e'] g'] l]; [ql| |ql]. apply Forall_cons_iff in H as [(_ & Q1 & Q2) _]. cbn [fst cell normal] in *.
  destruct FWD as (R1 & _ & _ & R4). destruct (R4 s ft s' f' P2 Q2) as [K _]. rewrite (R1 s ft m). exact K.
Qed.
Lemma cells l : Forall shape_spans l -> Forall (fun p => 0 <= cell p /\ normal p) (map fst l).
Proof. induction 1 as [|s l H _ IH]; constructor; [apply H|exact IH]. Qed.
Lemma width_step p f l : row_width M (map fst ((p, f) :: l)) = step M p l + row_width M (map fst l).
Proof. cbn [map fst]. destruct p; cbn [row_width step]; [|reflexivity]. destruct l as [|[[] ?] ?]; reflexivity. Qed.
Lemma row_pos l : Forall shape_spans l -> 0 <= row_width M (map fst l).
Proof.
  intros H. destruct l as [|[p f] l]; [apply Qcle_refl|]. pose proof (cells _ H) as C. cbn [map fst] in *.
  eapply Qcle_trans; [|apply row_head; exact C]. apply Forall_cons_iff in C as [[C _] _]. exact C.
Qed.
Lemma lay_spans l : Forall shape_spans l -> forall x, 0 <= x -> spans (lay M x l) (x + row_width M (map fst l)).
Proof.
  induction l as [|[p f] l IH]; intros H x X; [apply spans_blank|]. pose proof (cells _ H) as C.
  pose proof H as H0. apply Forall_cons_iff in H0 as [Hs Hl]. cbn [lay]. apply spans_join.
  - destruct Hs as (S1 & S2 & S3). cbn [fst snd] in *. eapply spans_mono; [apply spans_move; [exact X|exact S1]|].
    match goal with |- _ <= x + ?w => assert (RH : cell p <= w) by exact (row_head _ _ C) end. ql.
  - pose proof (step_pos p f l Hs Hl). eapply spans_mono; [apply IH; [exact Hl|ql]|]. rewrite width_step. ql.
Qed.
Lemma row_spans l : Forall shape_spans l -> spans (lay M 0 l) (row_width M (map fst l)).
Proof. intros H. eapply spans_mono; [apply lay_spans; [exact H|apply Qcle_refl]|]. ql. Qed.
Definition boxed_spans (b : boxed) : Prop := spans (snd b) (x_w (fst b)) /\ 0 <= x_w (fst b) /\ 0 <= x_h (fst b) /\ 0 <= x_d (fst b).
Lemma box_spans l : Forall shape_spans l -> boxed_spans (box_of M l).
Proof.
  intros H. split; [apply row_spans; exact H|]. split; [now apply row_pos|]. unfold box_of, row. cbn [fst x_h x_d]. split; apply fold_qmax_ge.
Qed.
Lemma framed_spans l : Forall shape_spans l -> shape_spans (framed M l).
Proof. intros H. split; [exact (row_spans l H)|split; [exact (row_pos l H)|exact I]]. Qed.
Lemma small_spans b : boxed_spans b -> boxed_spans (small b).
Proof.
  intros (F & W & H & D). unfold small, scale. split; cbn [fst snd x_w x_h x_d]; [now apply spans_small|].
  repeat split; apply mul_pos; try assumption; discriminate.
Qed.
Lemma space_spans w : 0 <= w -> shape_spans (space w).
Proof. intros W. split; [apply spans_blank|split; [exact W|exact I]]. Qed.
Lemma mark_spans s f m : f_size f = Fin size -> shape_spans (mark s f m).
Proof.
  intros F. split; [exact (spans_mark s f size m F)|]. split; [|exact F]. cbn [mark fst cell]. destruct FWD as (R1 & _ & R3 & _).
  rewrite (R1 s f m). now apply R3.
Qed.

(** ** Constructions *)
Lemma delim_spans c typ H D : In c ["("; ")"; "\__sqrt__"] -> In typ ["rm"; "it"] -> 0 <= H -> 0 <= D -> shape_spans (delim M c (face size typ) H D).
Proof.
  intros C T HP DP. destruct REG as (_ & _ & _ & R4). specialize (R4 c typ C T). unfold delim, delimiter.
  set (f := face size typ) in *. set (u := up M c f true) in *. set (v := down M c f true) in *.
  set (q := (H + D) / (u + v)).
  assert (N : u + v <> 0) by (intros E; rewrite E in R4; now apply Qclt_not_eq in R4).
  assert (QP : 0 <= q).
  { unfold q, Qcdiv. apply mul_pos; [ql|]. apply Qcnot_lt_le. intros L.
    assert (X : 0 < (u + v) * (- / (u + v))).
    { replace 0 with (0 * (- / (u + v))) by ring. apply Qcmult_lt_compat_r; [ql|exact R4]. }
    replace ((u + v) * (- / (u + v))) with (- (1)) in X by (field; exact N). discriminate X. }
  split; [|split; [|exact I]]; cbn [fst snd cell x_w].
  - eapply spans_mono; [apply spans_move; [apply Qcle_refl|exact (spans_mark c (resize q f) (size * q) true eq_refl)]|]. ql.
  - destruct FWD as (_ & R2 & R3 & _). rewrite (R2 c f size q eq_refl QP). apply mul_pos; [exact QP|]. now apply R3.
Qed.
Lemma qmax0 a : 0 <= a -> qmax 0 a = a.
Proof. intros H. apply qmax_r. exact H. Qed.
Lemma half_twice a : a * Q2Qc (1 # 2) + a * Q2Qc (1 # 2) = a.
Proof. rewrite <- Qcmult_plus_distr_r. replace (Q2Qc (1 # 2) + Q2Qc (1 # 2)) with 1 by (apply Qc_is_canon; reflexivity). ring. Qed.
Lemma frac_spans th r ax a b : 0 <= th -> boxed_spans a -> boxed_spans b -> shape_spans (frac_shape M th r ax a b).
Proof.
  intros TH (FA & WA & _ & _) (FB & WB & _ & _). pose proof (qmax_ge (x_w (fst a)) (x_w (fst b))) as [Q1 Q2].
  assert (WP : 0 <= qmax (x_w (fst a)) (x_w (fst b))) by ql.
  unfold shape_spans, frac_shape. cbn [fst snd cell normal].
  assert (EW : x_w (fraction M th r ax (fst a) (fst b)) = qmax (x_w (fst a)) (x_w (fst b)) + (th + th)).
  { unfold fraction, row. cbn [x_w row_width gap]. rewrite (qmax0 _ WP). ring. }
  rewrite EW. set (w := qmax _ _) in *. split; [|split; [ql|exact I]].
  assert (H1 : forall z, 0 <= w - z -> 0 <= (w - z) * Q2Qc (1 # 2)) by (intros z Z; apply mul_pos; [exact Z|discriminate]).
  apply (spans_mono _ w); [|ql]. unfold frac_figure. fold w. apply spans_join; [|apply spans_join].
  - eapply spans_mono; [apply spans_move; [apply Qcle_refl|]; apply spans_slide; [apply H1; ql|exact FA]|].
    rewrite half_twice. ql.
  - eapply spans_mono; [apply spans_move; [apply Qcle_refl|]; apply spans_stroke|]; rewrite (qmax0 _ WP); ql.
  - eapply spans_mono; [apply spans_move; [apply Qcle_refl|]; apply spans_slide; [apply H1; ql|exact FB]|].
    rewrite half_twice. ql.
Qed.
Lemma frac_dims' th r ax a b : 0 <= x_h (fraction M th r ax a b) /\ 0 <= x_d (fraction M th r ax a b).
Proof. unfold fraction, row. cbn [x_h x_d]. split; apply fold_qmax_ge. Qed.
Lemma binom_spans th ax typ a b : In typ ["rm"; "it"] -> 0 <= th -> boxed_spans a -> boxed_spans b ->
  shape_spans (binom_shape M th ax (face size typ) a b).
Proof.
  intros T TH FA FB. unfold binom_shape. destruct (frac_dims' th 0 ax (fst a) (fst b)) as [D1 D2].
  apply framed_spans. constructor; [|constructor; [|constructor; [|constructor]]].
  - apply delim_spans; cbn [In]; auto.
  - now apply frac_spans.
  - apply delim_spans; cbn [In]; auto.
Qed.
Lemma lined_spans th pad w H b : 0 <= pad -> 0 <= w -> pad + x_w (fst b) <= w -> boxed_spans b -> spans (lined th pad w H b) w.
Proof.
  intros P W L (F & _). unfold lined. apply spans_join.
  - eapply spans_mono; [apply spans_move; [apply Qcle_refl|]; apply spans_stroke|]; rewrite (qmax0 _ W); ql.
  - eapply spans_mono; [apply spans_move; [exact P|]; apply spans_drop; exact F|]. ql.
Qed.
Lemma over_spans th e b : boxed_spans b -> shape_spans (over_shape M th e b).
Proof.
  intros B. pose proof B as (_ & W & _ & _). unfold shape_spans, over_shape. cbn [fst snd cell normal].
  assert (EW : x_w (overline M th e (fst b)) = x_w (fst b)).
  { unfold overline, row. cbn [x_w row_width]. rewrite (qmax0 _ W). ring. }
  rewrite EW. split; [|split; [exact W|exact I]]. apply lined_spans; [apply Qcle_refl|exact W|ql|exact B].
Qed.
Lemma root_spans th e typ b : In typ ["rm"; "it"] -> 0 <= th -> boxed_spans b -> shape_spans (root_shape M th e (face size typ) None b).
Proof.
  intros T TH B. pose proof B as (FB & W & HB & DB). unfold root_shape. cbv zeta. cbn [fst snd gap x_w].
  set (H := x_h (fst b) + (th + th + th + th + th)). set (c := delimiter M "\__sqrt__" (face size typ) H (x_d (fst b))).
  assert (HP : 0 <= H) by (unfold H; ql).
  destruct (delim_spans "\__sqrt__" typ H (x_d (fst b)) (or_intror (or_intror (or_introl eq_refl))) T HP DB) as (CS & CP & _).
  assert (EC : cell (fst (delim M "\__sqrt__" (face size typ) H (x_d (fst b)))) = x_w c) by reflexivity. rewrite EC in CS, CP. clear EC.
  set (w := x_w (fst b) + (th + th + th + th)). assert (WP : 0 <= w) by (unfold w; ql).
  set (body := lined th (th + th) w (x_h c + e) b).
  assert (BS : spans body w) by (apply lined_spans; [ql|exact WP|unfold w; ql|exact B]).
  assert (CH : 0 <= x_w c * Q2Qc (1 # 2)) by (apply mul_pos; [exact CP|discriminate]).
  unfold shape_spans, framed. cbn [fst snd cell normal map space row x_w row_width gap delim]. fold c. rewrite (qmax0 _ CH), (qmax0 _ WP).
  split; [|split; [|exact I]].
  - cbn [lay step]. repeat apply spans_join.
    + cbn [x_w]. intros k x y K. constructor.
    + intros k x y K. constructor.
    + eapply spans_mono; [apply spans_move; [|exact CS]|]; cbn [step x_w gap]; try fold c; ql.
    + eapply spans_mono; [apply spans_move; [|exact BS]|]; cbn [step x_w gap]; try fold c; ql.
    + apply spans_blank.
  - ql.
Qed.

(** ** Expressions *)
Variable expr : string.
Lemma em_pos : 0 <= em M size.
Proof. unfold em. destruct FWD as (_ & _ & R3 & _). now apply R3. Qed.
Lemma thin_pos : 0 <= em_over M size 1 5.
Proof. unfold em_over. apply mul_pos; [apply em_pos|discriminate]. Qed.
Lemma space_pos name : name <> "\!" -> 0 <= space_of M size name.
Proof.
  intros N. unfold space_of. destruct (find _ space_ems) as [[nm [a b]]|] eqn:F; [|apply Qcle_refl].
  apply find_some in F as [I E]. cbn [fst] in E. apply String.eqb_eq in E. subst nm. unfold em_over.
  unfold space_ems in I. cbn [In] in I.
  repeat (destruct I as [I|I]; [assert (Q : (name, (a, b)) = (name, (a, b))) by reflexivity; injection I as I1 I2 I3; subst a b; try (apply mul_pos; [apply em_pos|discriminate]); exfalso; apply N; now rewrite I1|]).
  destruct I.
Qed.
Lemma symbol_spans m typ s p : Forall shape_spans (symbol_shape M expr size m typ s p).
Proof.
  assert (G : shape_spans (mark s (face size typ) m)) by (apply mark_spans; reflexivity).
  assert (T : shape_spans (space (em_over M size 1 5))) by (apply space_spans, thin_pos).
  assert (ONE : forall x, shape_spans x -> Forall shape_spans [x]) by (intros x H; exact (Forall_cons _ H (Forall_nil _))).
  unfold symbol_shape. destruct (one_of _ _); [destruct (_ && _)|destruct (String.eqb s "."); [destruct (decimal_point _ _)|]].
  - exact (ONE _ G).
  - apply ONE, framed_spans. exact (Forall_cons _ T (Forall_cons _ G (ONE _ T))).
  - exact (ONE _ G).
  - apply ONE, framed_spans. exact (Forall_cons _ G (ONE _ T)).
  - exact (ONE _ G).
Qed.
Lemma letters_span m typ l : Forall shape_spans (map (letter_shape size m typ) l).
Proof. induction l; constructor; [apply mark_spans; reflexivity|assumption]. Qed.

Definition all (l : list node) : Prop := (fix all l := match l with [] => True | x :: l' => forward M x /\ all l' end) l.
Lemma all_in l x : all l -> In x l -> forward M x.
Proof. induction l as [|y l IH]; [intros _ []|intros [A B] [->|I]; [exact A|now apply IH]]. Qed.
Lemma shapes_span n :
  (forward M n -> forall w m typ, In typ ["rm"; "it"] -> Forall shape_spans (shapes M expr size dpi w m typ n)) /\
  Forall (fun x => forward M x -> forall w m typ, In typ ["rm"; "it"] -> Forall shape_spans (shapes M expr size dpi w m typ x)) (list_children n).
Proof.
  set (P := fun n => forward M n -> forall w m typ, In typ ["rm"; "it"] -> Forall shape_spans (shapes M expr size dpi w m typ n)).
  change (P n /\ Forall P (list_children n)).
  assert (FC : forall l, Forall (fun n => P n /\ Forall P (list_children n)) l -> Forall P l).
  { intros l H. eapply Forall_impl; [|exact H]. cbn. tauto. }
  assert (FM : forall l w m typ, In typ ["rm"; "it"] -> Forall P l -> all l -> Forall shape_spans (flat_map (shapes M expr size dpi w m typ) l)).
  { intros l w m typ T H. induction H as [|x l Hx _ IH]; [constructor|]. intros [A1 A2]. cbn [flat_map]. apply Forall_app. split; [now apply Hx|now apply IH]. }
  assert (ONE : forall s, shape_spans s -> Forall shape_spans [s]) by (intros; constructor; [assumption|constructor]).
  induction n using node_ind'; cbn [list_children]; split; auto; try (apply Forall_nil); try (intros _ w m typ _; apply Forall_nil).
  - intros A [] m typ T; [|constructor]. cbn [shapes]. apply FM; auto.
  - destruct nm as [[p name]|]; [|intros _ w m typ _; apply Forall_nil]. intros (NB & AL & HS) w m typ T. cbn [shapes]. fold (all l) in AL.
    assert (AR : forall a x b, In (NArg a x b) l -> boxed_spans (box_of M (flat_map (shapes M expr size dpi true m typ) x))).
    { intros a x b I. apply box_spans. rewrite Forall_forall in H. apply FM; [exact T|apply (H _ I)|exact (all_in _ _ AL I)]. }
    assert (TH : 0 <= line M (face size typ)) by (now apply REG).
    clear H.
    destruct (one_of spacing_names name); [apply ONE, space_spans, space_pos, NB|].
    destruct (String.eqb name "\hspace") eqn:EH.
    { apply String.eqb_eq in EH. destruct l as [|[] l]; try apply Forall_nil.
      match goal with |- context [match ?x with [] => _ | _ => _ end] => destruct x as [|[] ?]; try apply Forall_nil end.
      apply ONE, space_spans, mul_pos; [apply em_pos|now apply HS]. }
    destruct (one_of FunctionNames_list (sdrop 1 name)). { apply ONE, framed_spans, letters_span. }
    destruct (one_of ["\frac"; "\tfrac"] name).
    { destruct l as [|[| | |a1 x1 b1| | | | | | | |] [|[| | |a2 x2 b2| | | | | | | |] l]]; try apply Forall_nil.
      apply ONE, frac_spans; auto; [apply small_spans; apply (AR a1 x1 b1); cbn; auto|apply small_spans; apply (AR a2 x2 b2); cbn; auto]. }
    destruct (String.eqb name "\dfrac").
    { destruct l as [|[| | |a1 x1 b1| | | | | | | |] [|[| | |a2 x2 b2| | | | | | | |] l]]; try apply Forall_nil.
      apply ONE, frac_spans; auto; [apply (AR a1 x1 b1); cbn; auto|apply (AR a2 x2 b2); cbn; auto]. }
    destruct (String.eqb name "\binom").
    { destruct l as [|[| | |a1 x1 b1| | | | | | | |] [|[| | |a2 x2 b2| | | | | | | |] l]]; try apply Forall_nil.
      apply ONE, binom_spans; auto; [apply small_spans; apply (AR a1 x1 b1); cbn; auto|apply small_spans; apply (AR a2 x2 b2); cbn; auto]. }
    destruct (String.eqb name "\sqrt") eqn:ES.
    { apply String.eqb_eq in ES.
      destruct l as [|y1 [|y2 [|y3 l]]]; try apply Forall_nil.
      - destruct y1; try apply Forall_nil. apply ONE, root_spans; auto. apply (AR _ _ _ (or_introl eq_refl)).
      - destruct y1; try apply Forall_nil; destruct y2; try apply Forall_nil. exfalso. now apply HS.
      - destruct y1; try apply Forall_nil; destruct y2; apply Forall_nil. }
    destruct (String.eqb name "\overline").
    { destruct l as [|y1 l]; try apply Forall_nil. destruct y1; try apply Forall_nil. apply ONE, over_spans; auto. apply (AR _ _ _ (or_introl eq_refl)). }
    apply symbol_spans.
  - intros A w m typ T. cbn [shapes]. apply FM; [cbn; auto|auto|exact A].
  - intros A w m typ T. cbn [shapes]. apply ONE, framed_spans, letters_span.
  - intros A w m typ T. cbn [shapes]. induction (letters s) as [|x xs IH]; [constructor|]. cbn [flat_map]. apply Forall_app. split; [apply symbol_spans|exact IH].
  - intros A w m typ T. cbn [shapes]. destruct m; [|apply ONE; apply mark_spans; reflexivity].
    destruct (one_of spacing_names s); [apply ONE, space_spans, space_pos, A|apply symbol_spans].
Qed.
Lemma picture_spans l : Forall (forward M) l -> spans (picture_of M expr size dpi l) (x_w (row M (map fst (flat_map (shapes M expr size dpi true false "rm") l)))).
Proof.
  intros A. assert (AL : all l) by (induction A; [exact I|split; assumption]).
  unfold picture_of, box_of. cbn [snd]. apply row_spans.
  destruct (shapes_span (NList l)) as [H _]. exact (H AL true false "rm" (or_introl eq_refl)).
Qed.
End Side.
