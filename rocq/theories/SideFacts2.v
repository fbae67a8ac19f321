(** Proof that nothing overlaps (SideSpec.v). *)
From Coq Require Import ZArith String Ascii List Bool Lia QArith Qround Qcanon Lqa.
From Verif Require Import Utf8 Token Ast SetTable Symbols TreeSpec Arith Exact OrderLaws Box Ship
  MtexSpec FracSpec PropMtex ReadSpec GeomSpec GeomFacts SizeSpec SizeFacts PropSize PicSpec PicFacts RoomFacts PropPic SideSpec SideFacts.
Import ListNotations.
Local Open Scope string_scope.
Local Open Scope list_scope.
Local Open Scope Qc_scope.

Lemma any_two_nil {X} (R : X -> X -> Prop) : any_two R [].
Proof. intros [] j a b _ H; discriminate H. Qed.
Lemma any_two_one {X} (R : X -> X -> Prop) x : any_two R [x].
Proof. intros i [|[|j]] a b L H1 H2; [lia|discriminate H2|discriminate H2]. Qed.
Lemma any_two_app {X} (R : X -> X -> Prop) l l' : any_two R l -> any_two R l' -> (forall a b, In a l -> In b l' -> R a b) -> any_two R (l ++ l').
Proof.
  intros A B C i j a b L H1 H2. destruct (lt_dec j (List.length l)) as [J|J].
  - rewrite nth_error_app1 in H1, H2 by lia. exact (A i j a b L H1 H2).
  - destruct (lt_dec i (List.length l)) as [I|I].
    + rewrite nth_error_app1 in H1 by lia. rewrite nth_error_app2 in H2 by lia. apply nth_error_In in H1, H2. now apply C.
    + rewrite nth_error_app2 in H1, H2 by lia. eapply B; [|exact H1|exact H2]. lia.
Qed.

Section Apart.
Variables (M : measures) (size dpi : Qc).
Hypothesis REG : regular M size.
Hypothesis FWD : forward_fonts M size.
Hypothesis LOOSE : loose_fonts M size.
Notation spans := (spans M dpi).
Notation fits := (fits M dpi).
Notation shape_spans := (shape_spans M size dpi).

Lemma side_apart a m b t1 b1 t2 b2 e1 e2 : within M a m e1 -> stays M t1 b1 e1 -> within M m b e2 -> stays M t2 b2 e2 -> apart M e1 e2.
Proof.
  unfold apart. destruct e1 as [[x| | |] [y| | |] ? ? ?|[x1| | |] [y1| | |] [x2| | |] [y2| | |]]; cbn [within stays cell_of]; try contradiction; intros H1 _;
  (destruct e2 as [[x'| | |] [y'| | |] ? ? ?|[x1'| | |] [y1'| | |] [x2'| | |] [y2'| | |]]; cbn [within stays cell_of]; try contradiction; intros H2 _; left; ql).
Qed.
Lemma above_apart a1 b1 a2 b2 t m b e1 e2 : within M a1 b1 e1 -> stays M t m e1 -> within M a2 b2 e2 -> stays M m b e2 -> apart M e1 e2.
Proof.
  unfold apart. destruct e1 as [[x| | |] [y| | |] ? ? ?|[x1| | |] [y1| | |] [x2| | |] [y2| | |]]; cbn [within stays cell_of]; try contradiction; intros _ H1;
  (destruct e2 as [[x'| | |] [y'| | |] ? ? ?|[x1'| | |] [y1'| | |] [x2'| | |] [y2'| | |]]; cbn [within stays cell_of]; try contradiction; intros _ H2; right; right; left; ql).
Qed.

(** A figure inside a cell, without overlaps. *)
Definition tidy (f : figure) (w h d : Qc) : Prop :=
  spans f w /\ fits f h d 0 /\ forall k x y, 0 <= k -> any_two (apart M) (ink dpi k x y f).
Lemma tidy_parts f w h d k x y : tidy f w h d -> 0 <= k ->
  Forall (within M x (x + k * w)) (ink dpi k x y f) /\ Forall (stays M (y - k * h) (y + k * d)) (ink dpi k x y f) /\ any_two (apart M) (ink dpi k x y f).
Proof.
  intros (A & B & C) K. split; [now apply A|]. split; [|now apply C]. eapply Forall_impl; [|apply (fits_ink M dpi _ _ _ _ B k x y K)]. intros e. rewrite half_0. apply stays_mono; ql.
Qed.
Lemma tidy_mono f w h d w' h' d' : tidy f w h d -> w <= w' -> h <= h' -> d <= d' -> tidy f w' h' d'.
Proof. intros (A & B & C) W H D. split; [now apply (spans_mono M dpi f w)|]. split; [|exact C]. exact (fits_mono M dpi f h d 0 h' d' 0 B H D (le_n _)). Qed.
Lemma tidy_blank w h d : tidy Blank w h d.
Proof. split; [apply spans_blank|]. split; [apply fits_blank|]. intros. apply any_two_nil. Qed.
Lemma tidy_mark s f z m : f_size f = Fin z -> tidy (Mark s f) (adv M s f m) (up M s f m) (down M s f m).
Proof. intros F. split; [exact (spans_mark M size dpi FWD s f z m F)|]. split; [exact (fits_mark M size dpi REG s f z m F)|]. intros. apply any_two_one. Qed.
Lemma tidy_stroke w h : 0 <= w -> 0 <= h -> tidy (Stroke w h) w 0 h.
Proof. intros W H. split; [now apply spans_stroke|]. split; [now apply fits_stroke|]. intros. cbn [ink]. destruct (qltb 0 h); [apply any_two_one|apply any_two_nil]. Qed.
Lemma tidy_move f dx dy w h d : 0 <= dx -> tidy f w h d -> tidy (Move dx dy f) (w + dx) (h - dy) (d + dy).
Proof. intros D (A & B & C). split; [now apply spans_move|]. split; [now apply fits_move|]. intros. cbn [ink]. now apply C. Qed.
Lemma tidy_slide f s w h d : 0 <= s -> tidy f w h d -> tidy (Slide s f) (w + (s + s)) h d.
Proof. intros D (A & B & C). split; [now apply spans_slide|]. split; [now apply fits_slide|]. intros. cbn [ink]. now apply C. Qed.
Lemma tidy_small f w h d : tidy f w h d -> tidy (Small f) (Q2Qc (7 # 10) * w) (Q2Qc (7 # 10) * h) (Q2Qc (7 # 10) * d).
Proof. intros (A & B & C). split; [now apply spans_small|]. split; [now apply fits_small|]. intros. cbn [ink]. apply C, mul_pos; [assumption|discriminate]. Qed.
(** Two figures one above the other. *)
Lemma tidy_stack f g w h d m h' d' : tidy f w h m -> tidy g w (- m) d -> h <= h' -> - m <= h' -> m <= d' -> d <= d' -> tidy (Join f g) w h' d'.
Proof.
  intros F G H1 H2 D1 D2. split; [apply spans_join; [apply F|apply G]|]. split.
  - apply fits_join; [exact (fits_mono M dpi f h m 0 h' d' 0 (proj1 (proj2 F)) H1 D1 (le_n _))|exact (fits_mono M dpi g (- m) d 0 h' d' 0 (proj1 (proj2 G)) H2 D2 (le_n _))].
  - intros k x y K. cbn [ink]. destruct (tidy_parts _ _ _ _ k x y F K) as (A1 & A2 & A3), (tidy_parts _ _ _ _ k x y G K) as (B1 & B2 & B3).
    apply any_two_app; auto. intros a b Ia Ib. rewrite Forall_forall in *.
    replace (y - k * - m) with (y + k * m) in B2 by ring. exact (above_apart _ _ _ _ _ _ _ _ _ (A1 _ Ia) (A2 _ Ia) (B1 _ Ib) (B2 _ Ib)).
Qed.

(** ** Rows *)
Definition shape_tidy (s : shape) : Prop := tidy (snd s) (cell M (fst s)) (tall M (fst s)) (deep M (fst s)) /\ 0 <= cell M (fst s) /\ normal size (fst s).
Lemma tidy_spans s : shape_tidy s -> shape_spans s.
Proof. intros ((A & _) & B). split; assumption. Qed.
Lemma tidy_fits s : shape_tidy s -> shape_fits M dpi 0 s.
Proof. intros ((_ & A & _) & _). exact A. Qed.
Lemma step_room p l f : shape_tidy (p, f) -> Forall shape_tidy l -> cell M p <= step M p l.
Proof.
  intros (_ & P1 & P2) H. cbn [fst] in *. destruct p as [s ft m|e]; cbn [step cell normal] in *; [|apply Qcle_refl].
  destruct l as [|[[s' f' m'|e'] g'] l]; [ql| |ql]. apply Forall_cons_iff in H as [(_ & Q1 & Q2) _]. cbn [fst cell normal] in *.
  pose proof (LOOSE s ft s' f' P2 Q2). ql.
Qed.
Lemma lay_apart l : Forall shape_tidy l -> forall k X Y x, 0 <= k -> any_two (apart M) (ink dpi k X Y (lay M x l)).
Proof.
  induction l as [|[p f] l IH]; intros H k X Y x K; [apply any_two_nil|]. pose proof H as H0. apply Forall_cons_iff in H0 as [Hs Hl].
  cbn [lay ink]. apply any_two_app.
  - apply Hs, K.
  - now apply IH.
  - intros a b Ia Ib. destruct Hs as (T & P1 & P2). cbn [fst snd] in *. destruct (tidy_parts _ _ _ _ k (X + k * x) (Y + k * 0) T K) as (A1 & A2 & _).
    pose proof (step_room p l f (conj T (conj P1 P2)) Hl) as SR.
    assert (LS : Forall shape_spans l) by (eapply Forall_impl; [apply tidy_spans|exact Hl]).
    assert (LF : Forall (shape_fits M dpi 0) l) by (eapply Forall_impl; [apply tidy_fits|exact Hl]).
    replace (x + step M p l) with (x + step M p l + 0) in Ib by ring. rewrite lay_shift in Ib.
    pose proof (row_spans M size dpi FWD l LS k (X + k * (x + step M p l)) Y K) as B1. pose proof (fits_ink M dpi _ _ _ _ (row_fits M dpi 0 l LF) k (X + k * (x + step M p l)) Y K) as B2.
    rewrite Forall_forall in *. specialize (A1 _ Ia). specialize (A2 _ Ia). specialize (B1 _ Ib). specialize (B2 _ Ib).
    refine (side_apart _ _ _ _ _ _ _ _ _ (within_mono M _ _ _ (X + k * (x + step M p l)) _ (Qcle_refl _) _ A1) A2 B1 B2).
    pose proof (mul_le k _ _ K SR). ql.
Qed.
Lemma row_tidy l : Forall shape_tidy l -> tidy (lay M 0 l) (row_width M (map fst l)) (x_h (row M (map fst l))) (x_d (row M (map fst l))).
Proof.
  intros H. assert (LS : Forall shape_spans l) by (eapply Forall_impl; [apply tidy_spans|exact H]).
  assert (LF : Forall (shape_fits M dpi 0) l) by (eapply Forall_impl; [apply tidy_fits|exact H]).
  split; [now apply (row_spans M size)|]. split; [now apply row_fits|]. intros. now apply lay_apart.
Qed.
Lemma row_wide l : Forall shape_tidy l -> 0 <= row_width M (map fst l).
Proof. intros H. apply (row_pos M size dpi FWD). eapply Forall_impl; [apply tidy_spans|exact H]. Qed.
Definition boxed_tidy (b : boxed) : Prop :=
  tidy (snd b) (x_w (fst b)) (x_h (fst b)) (x_d (fst b)) /\ 0 <= x_w (fst b) /\ 0 <= x_h (fst b) /\ 0 <= x_d (fst b).
Lemma box_tidy l : Forall shape_tidy l -> boxed_tidy (box_of M l).
Proof.
  intros H. split; [apply row_tidy; exact H|]. split; [now apply row_wide|]. unfold box_of, row. cbn [fst x_h x_d]. split; apply fold_qmax_ge.
Qed.
Lemma framed_tidy l : Forall shape_tidy l -> shape_tidy (framed M l).
Proof. intros H. split; [exact (row_tidy l H)|split; [exact (row_wide l H)|exact I]]. Qed.
Lemma small_tidy b : boxed_tidy b -> boxed_tidy (small b).
Proof.
  intros (F & W & H & D). unfold small, scale. split; cbn [fst snd x_w x_h x_d]; [now apply tidy_small|].
  repeat split; apply mul_pos; try assumption; discriminate.
Qed.
Lemma space_tidy w : 0 <= w -> shape_tidy (space w).
Proof. intros W. split; [apply tidy_blank|split; [exact W|exact I]]. Qed.
Lemma mark_tidy s f m : f_size f = Fin size -> shape_tidy (mark s f m).
Proof.
  intros F. destruct (mark_spans M size dpi FWD s f m F) as (_ & P). split; [exact (tidy_mark s f size m F)|exact P].
Qed.
Lemma delim_tidy c typ H D : In c ["("; ")"; "\__sqrt__"] -> In typ ["rm"; "it"] -> 0 <= H -> 0 <= D -> shape_tidy (delim M c (face size typ) H D).
Proof.
  intros C T HP DP. destruct (delim_spans M size dpi REG FWD c typ H D C T HP DP) as (S1 & S2). split; [|exact S2].
  split; [exact S1|]. split; [exact (delim_fits M size dpi REG c typ H D C T HP DP)|]. intros. cbn [delim snd ink]. apply any_two_one.
Qed.
Lemma frac_tidy th r ax a b : 0 <= th -> 0 <= r -> r <= th -> boxed_tidy a -> boxed_tidy b -> shape_tidy (frac_shape M th r ax a b).
Proof.
  intros TH R RT A B. pose proof A as ((SA & FA & _) & WA & HA & DA). pose proof B as ((SB & FB & _) & WB & HB & DB).
  destruct (frac_spans M size dpi th r ax a b TH) as (S1 & S2); [repeat split; assumption..|]. split; [|exact S2]. split; [exact S1|]. split.
  { apply (frac_fits M dpi); auto; refine (conj _ (conj _ _)); assumption. }
  clear S1 S2. intros k x y K. cbn [frac_shape snd]. unfold frac_figure. pose proof (qmax_ge (x_w (fst a)) (x_w (fst b))) as [Q1 Q2]. set (w := qmax _ _) in *.
  assert (WP : 0 <= w) by ql. rewrite (qmax0 _ WP).
  assert (H1 : forall z, 0 <= w - z -> 0 <= (w - z) * Q2Qc (1 # 2)) by (intros z Z; apply mul_pos; [exact Z|discriminate]).
  assert (TN : tidy (Move 0 (- (ax + (th + r) + x_d (fst a))) (Slide ((w - x_w (fst a)) * Q2Qc (1 # 2)) (snd a))) w (ax + (th + r) + x_d (fst a) + x_h (fst a)) (- (ax - th))).
  { eapply tidy_mono; [apply tidy_move; [apply Qcle_refl|]; apply tidy_slide; [apply H1; ql|apply A]| | |]; rewrite ?half_twice; ql. }
  assert (TS : tidy (Move 0 (th - ax) (Stroke w r)) w (- - (ax - th)) (- (ax - (th + th + th)))).
  { eapply tidy_mono; [apply tidy_move; [apply Qcle_refl|]; apply tidy_stroke; [exact WP|exact R]| | |]; ql. }
  assert (TD : tidy (Move 0 (th + th + th + x_h (fst b) - ax) (Slide ((w - x_w (fst b)) * Q2Qc (1 # 2)) (snd b))) w (- - (ax - (th + th + th))) (x_d (fst b) + x_h (fst b) + (th + th + th) - ax)).
  { eapply tidy_mono; [apply tidy_move; [apply Qcle_refl|]; apply tidy_slide; [apply H1; ql|apply B]| | |]; rewrite ?half_twice; ql. }
  refine (proj2 (proj2 (tidy_stack _ _ _ _ (x_d (fst b) + x_h (fst b) + (th + th + th) - ax) _ (ax + (th + r) + x_d (fst a) + x_h (fst a)) (x_d (fst b) + x_h (fst b) + (th + th + th) - ax) TN (tidy_stack _ _ _ _ _ _ _ _ TS TD _ _ _ _) _ _ _ _)) k x y K); ql.
Qed.
Lemma binom_tidy th ax typ a b : In typ ["rm"; "it"] -> 0 <= th -> boxed_tidy a -> boxed_tidy b -> shape_tidy (binom_shape M th ax (face size typ) a b).
Proof.
  intros T TH FA FB. unfold binom_shape. destruct (frac_dims M th 0 ax (fst a) (fst b)) as [D1 D2].
  apply framed_tidy. constructor; [|constructor; [|constructor; [|constructor]]].
  - apply delim_tidy; cbn [In]; auto.
  - apply frac_tidy; auto. apply Qcle_refl.
  - apply delim_tidy; cbn [In]; auto.
Qed.

(** ** Expressions *)
Variable expr : string.
Lemma symbol_tidy m typ s p : Forall shape_tidy (symbol_shape M expr size m typ s p).
Proof.
  assert (G : shape_tidy (mark s (face size typ) m)) by (apply mark_tidy; reflexivity).
  assert (T : shape_tidy (space (em_over M size 1 5))) by (apply space_tidy, thin_pos, FWD).
  assert (ONE : forall x, shape_tidy x -> Forall shape_tidy [x]) by (intros x H; exact (Forall_cons _ H (Forall_nil _))).
  unfold symbol_shape. destruct (one_of _ _); [destruct (_ && _)|destruct (String.eqb s "."); [destruct (decimal_point _ _)|]].
  - exact (ONE _ G).
  - apply ONE, framed_tidy. exact (Forall_cons _ T (Forall_cons _ G (ONE _ T))).
  - exact (ONE _ G).
  - apply ONE, framed_tidy. exact (Forall_cons _ G (ONE _ T)).
  - exact (ONE _ G).
Qed.
Lemma letters_tidy m typ l : Forall shape_tidy (map (letter_shape size m typ) l).
Proof. induction l; constructor; [apply mark_tidy; reflexivity|assumption]. Qed.

Lemma most_0 l x : most l = O -> In x l -> bars x = O.
Proof. intros H I. pose proof (most_in l x I). lia. Qed.
Lemma shapes_tidy n :
  (forward M n -> bars n = O -> forall w m typ, In typ ["rm"; "it"] -> Forall shape_tidy (shapes M expr size dpi w m typ n)) /\
  Forall (fun x => forward M x -> bars x = O -> forall w m typ, In typ ["rm"; "it"] -> Forall shape_tidy (shapes M expr size dpi w m typ x)) (list_children n).
Proof.
  set (P := fun n => forward M n -> bars n = O -> forall w m typ, In typ ["rm"; "it"] -> Forall shape_tidy (shapes M expr size dpi w m typ n)).
  change (P n /\ Forall P (list_children n)).
  assert (FC : forall l, Forall (fun n => P n /\ Forall P (list_children n)) l -> Forall P l).
  { intros l H. eapply Forall_impl; [|exact H]. cbn. tauto. }
  assert (FM : forall l w m typ, In typ ["rm"; "it"] -> Forall P l -> all M l -> most l = O -> Forall shape_tidy (flat_map (shapes M expr size dpi w m typ) l)).
  { intros l w m typ T H. induction H as [|x l Hx _ IH]; [constructor|]. intros [A1 A2] B. cbn [most] in B. fold (most l) in B. cbn [flat_map]. apply Forall_app.
    split; [apply Hx; [exact A1|lia|exact T]|apply IH; [exact A2|lia]]. }
  assert (ONE : forall s, shape_tidy s -> Forall shape_tidy [s]) by (intros; constructor; [assumption|constructor]).
  induction n using node_ind'; cbn [list_children]; split; auto; try (apply Forall_nil); try (intros _ _ w m typ _; apply Forall_nil).
  - intros A B [] m typ T; [|constructor]. cbn [shapes]. apply FM; auto.
  - destruct nm as [[p name]|]; [|intros _ _ w m typ _; apply Forall_nil]. intros (NB & AL & HS) BR w m typ T. cbn [shapes]. fold (all M l) in AL.
    cbn [bars] in BR. fold (most l) in BR. destruct (one_of ["\sqrt"; "\overline"] name) eqn:NR; [discriminate BR|].
    assert (AR : forall a x b, In (NArg a x b) l -> boxed_tidy (box_of M (flat_map (shapes M expr size dpi true m typ) x))).
    { intros a x b I. apply box_tidy. rewrite Forall_forall in H. apply FM; [exact T|apply (H _ I)|exact (all_in _ _ _ AL I)|exact (most_0 _ _ BR I)]. }
    assert (TH : 0 <= line M (face size typ)) by (now apply REG).
    clear H.
    destruct (one_of spacing_names name); [apply ONE, space_tidy, (space_pos M size FWD), NB|].
    destruct (String.eqb name "\hspace") eqn:EH.
    { apply String.eqb_eq in EH. destruct l as [|[] l]; try apply Forall_nil.
      match goal with |- context [match ?x with [] => _ | _ => _ end] => destruct x as [|[] ?]; try apply Forall_nil end.
      apply ONE, space_tidy, mul_pos; [apply (em_pos M size FWD)|now apply HS]. }
    destruct (one_of FunctionNames_list (sdrop 1 name)). { apply ONE, framed_tidy, letters_tidy. }
    destruct (one_of ["\frac"; "\tfrac"] name).
    { destruct l as [|[| | |a1 x1 b1| | | | | | | |] [|[| | |a2 x2 b2| | | | | | | |] l]]; try apply Forall_nil.
      apply ONE, frac_tidy; auto; [apply Qcle_refl|apply small_tidy; apply (AR a1 x1 b1); cbn; auto|apply small_tidy; apply (AR a2 x2 b2); cbn; auto]. }
    destruct (String.eqb name "\dfrac").
    { destruct l as [|[| | |a1 x1 b1| | | | | | | |] [|[| | |a2 x2 b2| | | | | | | |] l]]; try apply Forall_nil.
      apply ONE, frac_tidy; auto; [apply Qcle_refl|apply (AR a1 x1 b1); cbn; auto|apply (AR a2 x2 b2); cbn; auto]. }
    destruct (String.eqb name "\binom").
    { destruct l as [|[| | |a1 x1 b1| | | | | | | |] [|[| | |a2 x2 b2| | | | | | | |] l]]; try apply Forall_nil.
      apply ONE, binom_tidy; auto; [apply small_tidy; apply (AR a1 x1 b1); cbn; auto|apply small_tidy; apply (AR a2 x2 b2); cbn; auto]. }
    destruct (String.eqb name "\sqrt") eqn:ES. { apply String.eqb_eq in ES. subst name. discriminate NR. }
    destruct (String.eqb name "\overline") eqn:EO. { apply String.eqb_eq in EO. subst name. discriminate NR. }
    apply symbol_tidy.
  - intros A B w m typ T. cbn [shapes]. apply FM; [cbn; auto|auto|exact A|exact B].
  - intros A B w m typ T. cbn [shapes]. apply ONE, framed_tidy, letters_tidy.
  - intros A B w m typ T. cbn [shapes]. induction (letters s) as [|x xs IH]; [constructor|]. cbn [flat_map]. apply Forall_app. split; [apply symbol_tidy|exact IH].
  - intros A B w m typ T. cbn [shapes]. destruct m; [|apply ONE; apply mark_tidy; reflexivity].
    destruct (one_of spacing_names s); [apply ONE, space_tidy, (space_pos M size FWD), A|apply symbol_tidy].
Qed.
Lemma picture_apart l : Forall (forward M) l -> bars_of l = O -> forall k x y, 0 <= k -> any_two (apart M) (ink dpi k x y (picture_of M expr size dpi l)).
Proof.
  intros A B. assert (AL : all M l) by (induction A; [exact I|split; [assumption|apply IHA; rewrite bars_most in *; cbn [most] in B; fold (most l) in B; lia]]).
  unfold picture_of, box_of. cbn [snd].
  destruct (shapes_tidy (NList l)) as [H _]. rewrite bars_most in B. intros k x y K. apply lay_apart; [|exact K]. exact (H AL B true false "rm" (or_introl eq_refl)).
Qed.
End Apart.
