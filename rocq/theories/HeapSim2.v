(** mtex/parser.go through pointers does what it does on trees. *)
From Coq Require Import ZArith String Ascii List Bool Lia Permutation.
From Verif Require Import Utf8 Token Ast SymTable SetTable MtexTable Parser Symbols Arith Box Ship Mtex Heap HeapSpec HeapFacts HeapSim.
Import ListNotations.
Local Open Scope string_scope.
Local Open Scope list_scope.
Local Open Scope nat_scope.

Section HeapSim2.
Context {A : arith} {S : Type}.
Notation F := (Arith.F A).
Notation tnode := (@Box.tnode A).
Notation heap := (heap A).
Notation HM := (prog A S).
Notation tri := (@tri A S).
Variable be : @backend A S.
Variable range : Symbols.gset -> list string.
Variable parse_float : string -> option F.
Variable expr : string.

Lemma tri_assoc {Y X X1 X2} W (m : M S Y) (m1 : HM X1) (k1 : X1 -> HM X2) (k2 : X2 -> HM X) Q :
  tri W m (pbind m1 (fun x => pbind (k1 x) k2)) Q -> tri W m (pbind (pbind m1 k1) k2) Q.
Proof. intros T h s fp O D. apply safe_assoc, T; assumption. Qed.
Lemma tri_assoc_l {Y X Y1 Y2} W (hm : HM X) (m1 : M S Y1) (k1 : Y1 -> M S Y2) (k2 : Y2 -> M S Y) Q :
  tri W (mbind m1 (fun x => mbind (k1 x) k2)) hm Q -> tri W (mbind (mbind m1 k1) k2) hm Q.
Proof.
  apply tri_ext. intro hs. unfold mbind. destruct (m1 hs) as [[x hs']|e]; reflexivity.
Qed.
Lemma tri_bret_l {Y X X1} W (hm : HM X) (x : X1) (k : X1 -> M S Y) Q : tri W (k x) hm Q -> tri W (mbind (mret x) k) hm Q.
Proof. apply tri_ext; reflexivity. Qed.

(** A call that makes a leaf, which is then allocated. *)
Lemma tri_leaf (m : M S tnode) : (forall s t s', m s = LOk (t, s') -> is_leaf t) -> tri [] m (t <~ call m ;; new t) one.
Proof.
  intros L h s fp O D. apply safe_call. specialize (L s). destruct (m s) as [[t s']|e] eqn:E; [|reflexivity].
  cbn [pbind]. eapply safe_mono; [apply (tri_one t (L t s' eq_refl) h s' fp O D)| |intros e H; discriminate H].
  cbn. intros x s2 fp' h' (y & W' & f' & E2 & K). inversion E2; subst. exists y, W', f'. auto.
Qed.
Lemma tri_make_space st p : tri [] (make_space be st p) (h_make_space be st p) one.
Proof.
  apply tri_leaf. intros s t s'. unfold make_space, mbind, mret. destruct (be_metrics be _ _ _ _ s) as [[m s1]|e]; intro E; inversion E; exact I.
Qed.
Lemma tri_hrule st p : tri [] (hrule be st p) (h_hrule be st p) one.
Proof.
  apply tri_leaf. intros s t s'. unfold hrule, mbind.
  match goal with |- match ?c with LOk _ => _ | LPanic _ => _ end = _ -> _ => destruct c as [[m s1]|e] end; intro E; inversion E; exact I.
Qed.
Lemma tri_hcentered a t : tri [(a, t)] (hcentered be [t]) (h_hcentered be [a]) one.
Proof.
  apply tri_new; [exact I|]. intro g1. apply tri_new; [exact I|]. intro g2.
  apply tri_hlist; [|reflexivity]. cbn [app]. perm.
Qed.

Lemma tri_auto_height_char c h d st f : tri [] (auto_height_char be c h d st f) (h_auto_height_char be c h d st f) one.
Proof.
  eapply tri_pure. intros _. eapply tri_pure. intro ch.
  assert (K : forall cs, tri [] (t <- hlist_of be [TChar (fst cs)] true ;; mret (set_shift (snd cs) t))
     (p <~ new (TChar (fst cs)) ;; t <~ h_hlist_of be [p] true ;; _ <~ h_set_shift (snd cs) t ;; PRet t) one).
  { intro cs. apply tri_new; [exact I|]. intro p.
    eapply tri_bind; [apply tri_hlist; [perm|reflexivity]|]. intros t a W ->.
    eapply tri_do; [perm|apply sets_shift|]. apply tri_ret. reflexivity. }
  destruct (negb (String.eqb (f_name (st_font st)) "")).
  - apply tri_assoc, tri_assoc_l. eapply tri_pure. intro ch'. apply tri_bret_l. apply K.
  - apply tri_bret_l. apply K.
Qed.

Lemma tri_handle_symbol sym pos st math :
  tri [] (handle_symbol range be expr sym pos st math) (h_handle_symbol be range expr sym pos st math) one.
Proof.
  eapply tri_pure. intro ch. apply tri_new; [exact I|]. intro p.
  assert (K : tri [(p, TChar ch)] (mret (TChar ch)) (PRet p) one) by (apply tri_ret; reflexivity).
  destruct (is_spaced range sym).
  { eapply tri_pure. intro bef. cbv zeta.
    destruct (set_has _ sym && _); [exact K|].
    eapply (tri_use [] [(p, TChar ch)]); [perm|apply tri_make_space|]. intros k1 a1 W ->.
    eapply (tri_use [] [(a1, k1); (p, TChar ch)]); [perm|apply tri_make_space|]. intros k2 a2 W ->.
    apply tri_hlist; [perm|reflexivity]. }
  destruct (set_has (new_set PunctuationSymbols_list) sym); [|exact K].
  destruct (String.eqb sym "."); [|apply tri_panic].
  eapply tri_pure. intro aft. cbv zeta.
  match goal with |- tri _ (if ?c then _ else _) _ _ => destruct c end; [exact K|].
  eapply (tri_use [] [(p, TChar ch)]); [perm|apply tri_make_space|]. intros k1 a1 W ->.
  apply tri_hlist; [perm|reflexivity].
Qed.

Lemma tri_handle_space name st : tri [] (handle_space be name st) (h_handle_space be name st) one.
Proof.
  unfold handle_space, h_handle_space. destruct (assoc name space_width) as [[n d]|]; [apply tri_make_space|apply tri_panic].
Qed.
Lemma tri_handle_custom args st :
  tri [] (handle_custom_space be parse_float args st) (h_handle_custom_space be parse_float args st) one.
Proof.
  unfold handle_custom_space, h_handle_custom_space.
  destruct args as [|[] args]; try apply tri_panic.
  destruct l as [|[] l]; try apply tri_panic.
  destruct (parse_float text); [apply tri_make_space|apply tri_panic].
Qed.

Lemma tri_chars st math : forall l W,
  tri W (mmap (fun x => c <- new_char be x st math ;; mret (TChar c)) l)
     (pmap (fun x => c <~ call (new_char be x st math) ;; new (TChar c)) l)
     (fun l' ls W' => Permutation W' (combine ls l' ++ W) /\ length ls = length l').
Proof.
  induction l as [|x l IH]; intro W.
  - apply tri_ret. split; reflexivity.
  - cbn [mmap pmap]. apply tri_assoc, tri_assoc_l. eapply tri_pure. intro c.
    apply tri_bret_l. apply tri_new; [exact I|]. intro a.
    eapply tri_bind; [apply IH|]. intros l' ls W' [P L]. apply tri_ret. cbn. split; [|congruence].
    eapply Permutation_trans; [exact P|]. symmetry. apply Permutation_cons_app. reflexivity.
Qed.
Lemma tri_new_chars st math x :
  tri [] (new_chars be x st math) (h_new_chars be x st math)
     (fun l' ls W' => Permutation W' (combine ls l') /\ length ls = length l').
Proof.
  eapply tri_weaken; [apply tri_chars|]. intros l' ls W' [P L]. rewrite app_nil_r in P. auto.
Qed.
Lemma tri_handle_function name st math : tri [] (handle_function be name st math) (h_handle_function be name st math) one.
Proof.
  eapply tri_bind; [apply tri_new_chars|]. intros l ls W [P L]. apply tri_hlist; assumption.
Qed.

Lemma width_fl (t : tnode) : t_width (fl t) = t_width t. Proof. destruct t; reflexivity. Qed.
Lemma height_fl (t : tnode) : t_height (fl t) = t_height t. Proof. destruct t; reflexivity. Qed.
Lemma depth_fl (t : tnode) : t_depth (fl t) = t_depth t. Proof. destruct t; reflexivity. Qed.
Lemma shift_fl (t : tnode) : t_shift (fl t) = t_shift t. Proof. destruct t; reflexivity. Qed.

Lemma tri_maybe_delim (c : bool) x h d st W : 
  tri W (if c then ahc <- auto_height_char be x h d st f0 ;; mret [ahc] else mret [])
      (if c then ahc <~ h_auto_height_char be x h d st f0 ;; PRet [ahc] else PRet [])
      (fun l ls W' => W' = combine ls l ++ W /\ length ls = length l).
Proof.
  destruct c; [|apply tri_ret; split; reflexivity].
  eapply (tri_use [] W); [reflexivity|apply tri_auto_height_char|]. intros t a W' ->. apply tri_ret. split; reflexivity.
Qed.
Lemma combine_app {X Y} (l1 l2 : list X) (m1 m2 : list Y) :
  length l1 = length m1 -> combine (l1 ++ l2) (m1 ++ m2) = combine l1 m1 ++ combine l2 m2.
Proof.
  revert m1. induction l1 as [|x l1 IH]; intros [|y m1] L; try discriminate L; [reflexivity|].
  cbn. rewrite IH; [reflexivity|]. now injection L.
Qed.
Lemma tri_auto_sized_delimiter l r a t st :
  tri [(a, t)] (auto_sized_delimiter be l t r st) (h_auto_sized_delimiter be l a r st) one.
Proof.
  unfold h_auto_sized_delimiter. eapply tri_look; [left; reflexivity|]. rewrite height_fl, depth_fl. cbv zeta.
  eapply tri_bind; [apply tri_maybe_delim|]. intros l1 ls1 W1 [-> L1].
  eapply tri_bind; [apply tri_maybe_delim|]. intros l2 ls2 W2 [-> L2].
  apply tri_hlist.
  - rewrite combine_app by exact L1. cbn [combine].
    eapply Permutation_trans; [apply Permutation_app_comm|]. rewrite <- app_assoc. apply Permutation_app_head. reflexivity.
  - rewrite !app_length. cbn. congruence.
Qed.


(** genfrac reads the width of the numerator and the denominator after centring them. *)
Lemma safe_hcentered p t f fp (h : heap) (s : S) : repr h p t f -> NoDup f -> incl f fp -> bounded fp h ->
  safe (h_hcentered be [p]) s fp h
    (fun a s' fp' h' => s' = s /\ exists cn, hcentered be [t] s = LOk (cn, s) /\ built h fp f cn a fp' h') (fun _ => False).
Proof.
  intros R D I B. apply safe_alloc. intros h1 R1. cbn [pbind]. apply safe_alloc. intros h2 R2. cbn [pbind app].
  set (g1 := length h1) in *. set (g2 := length h2) in *. cbn [h_hlist_of pbind].
  pose proof (bounded_rely fp h h1 B R1) as B1.
  assert (N1 : ~ In g1 fp) by (intro H; apply B1 in H; unfold g1 in H; lia).
  assert (Bg : bounded (g1 :: fp) (h1 ++ [CLeaf glue_ss])).
  { intros x [<-|Hx]; rewrite app_length; cbn; [unfold g1; lia|apply B1 in Hx; lia]. }
  pose proof (bounded_rely _ _ _ Bg R2) as B2.
  assert (N2 : ~ In g2 (g1 :: fp)) by (intro H; apply B2 in H; unfold g2 in H; lia).
  set (h3 := h2 ++ [CLeaf glue_ss]) in *.
  assert (K3 : forall x, In x fp -> nth_error h3 x = nth_error h x).
  { intros x Hx. unfold h3. rewrite nth_error_app1 by (apply B2; right; exact Hx).
    destruct R2 as [_ R2]. rewrite R2 by (right; exact Hx). rewrite nth_error_app1 by (apply B1, Hx). apply R1, Hx. }
  assert (Rs : reprs h3 [g1; p; g2] [glue_ss; t; glue_ss] ([g1] ++ f ++ [g2] ++ [])).
  { constructor; [|constructor; [|constructor; [|constructor]]].
    - constructor; [|exact Logic.I]. unfold h3. rewrite nth_error_app1 by (apply B2; left; reflexivity).
      destruct R2 as [_ R2]. rewrite R2 by (left; reflexivity). apply nth_new.
    - eapply repr_frame; [exact R|]. intros x Hx. apply K3, I, Hx.
    - constructor; [apply nth_new|exact Logic.I]. }
  assert (Df : NoDup ([g1] ++ f ++ [g2] ++ [])).
  { cbn. constructor.
    - intro H. apply in_app_or in H as [H|[H|[]]]; [apply N1, I, H|]. apply N2. left. symmetry. exact H.
    - apply nodup_app. split; [exact D|]. split; [repeat constructor; intros []|].
      intros x Hx [<-|[]]. apply N2. right. apply I, Hx. }
  assert (If : incl ([g1] ++ f ++ [g2] ++ []) (g2 :: g1 :: fp)).
  { cbn [app]. intros x [<-|Hx]; [right; left; reflexivity|]. apply in_app_or in Hx as [Hx|[<-|[]]]; [right; right; apply I, Hx|left; reflexivity]. }
  assert (B3 : bounded (g2 :: g1 :: fp) h3).
  { intros x [<-|Hx]; unfold h3; rewrite app_length; cbn; [unfold g2; lia|apply B2 in Hx; lia]. }
  eapply safe_mono; [apply (safe_pack KHList _ _ _ _ h3 s (h_hpack f0 true) (LOk (hpack f0 true (list_of KHList [glue_ss; t; glue_ss]))) Rs Df If B3)| |].
  - intro a. apply sets_hpack.
  - cbn beta. intros a s' fp' h' (-> & tt' & E & f' & R' & D' & I' & If' & N' & B' & Ag').
    split; [reflexivity|]. exists tt'. split; [unfold hcentered, hlist_of, mbind, mret; cbn [app]; congruence|].
    exists f'. split; [exact R'|]. split; [exact D'|]. split; [exact I'|].
    split; [intros x Hx; apply If'; right; right; exact Hx|]. split; [|split; [exact B'|]].
    + intros x Hx. destruct (N' x Hx) as [H|H].
      * cbn in H. destruct H as [<-|H]; [right; exact N1|]. apply in_app_or in H as [H|[<-|[]]]; [left; exact H|].
        right. intro H. apply N2. right. exact H.
      * right. intro H2. apply H. right. right. exact H2.
    + intros x Hx. rewrite <- (K3 x Hx). apply Ag'. right. right. exact Hx.
  - intros e H. discriminate H.
Qed.
Lemma tri_centre_two {X Y} num den n d R (k : tnode -> tnode -> M S Y) (hk : tnode -> tnode -> loc -> loc -> HM X) Q :
  (forall cn cd a b, tri ((a, cn) :: (b, cd) :: R) (k cn cd) (hk (fl n) (fl d) a b) Q) ->
  tri ((num, n) :: (den, d) :: R)
    (cn <- hcentered be [n] ;; cd <- hcentered be [d] ;; k cn cd)
    (a <~ h_hcentered be [num] ;; b <~ h_hcentered be [den] ;; x <~ look num ;; y <~ look den ;; hk x y a b) Q.
Proof.
  intros K h s fp O D. inversion O as [|? ? ? f1 f23 R1 O1]; subst. inversion O1 as [|? ? ? f2 fR R2 OR]; subst.
  pose proof (owns_bound h _ _ O) as B0. set (fp := f1 ++ f2 ++ fR) in *.
  apply nodup_app in D as (D1 & D23 & D1x). apply nodup_app in D23 as (D2 & DR & D2x).
  assert (I1 : incl f1 fp) by (apply incl_appl, incl_refl).
  assert (I2 : incl f2 fp) by (apply incl_appr, incl_appl, incl_refl).
  assert (IR : incl fR fp) by (apply incl_appr, incl_appr, incl_refl).
  eapply safe_bind.
  { eapply safe_mono; [apply (safe_hcentered num n f1 fp h s R1 D1 I1 B0)|intros ? ? ? ? q; exact q|intros e []]. }
  cbn beta. intros a s1 g1 h1 (-> & cn & Ecn & fa & Ra & Da & Ia & Ig1 & Na & B1 & Ag1).
  assert (R2' : repr h1 den d f2) by (eapply repr_frame; [exact R2|intros x Hx; apply Ag1, I2, Hx]).
  eapply safe_bind.
  { eapply safe_mono; [apply (safe_hcentered den d f2 g1 h1 s R2' D2); [intros x Hx; apply Ig1, I2, Hx|exact B1]|intros ? ? ? ? q; exact q|intros e []]. }
  cbn beta. intros b s2 g2 h2 (-> & cd & Ecd & fb & Rb & Db & Ib & Ig2 & Nb & B2 & Ag2).
  eapply safe_look with (f := f1).
  { eapply repr_frame; [exact R1|]. intros x Hx. rewrite (Ag2 x (Ig1 x (I1 x Hx))). apply Ag1, I1, Hx. }
  { intros x Hx. apply Ig2, Ig1, I1, Hx. }
  eapply safe_look with (f := f2).
  { eapply repr_frame; [exact R2|]. intros x Hx. rewrite (Ag2 x (Ig1 x (I2 x Hx))). apply Ag1, I2, Hx. }
  { intros x Hx. apply Ig2, Ig1, I2, Hx. }
  assert (O2 : owns h2 ((a, cn) :: (b, cd) :: R) (fa ++ fb ++ fR)).
  { constructor; [|constructor; [exact Rb|]].
    - eapply repr_frame; [exact Ra|]. intros x Hx. apply Ag2, Ia, Hx.
    - eapply owns_frame; [exact OR|]. intros x Hx. rewrite (Ag2 x (Ig1 x (IR x Hx))). apply Ag1, IR, Hx. }
  assert (Dn : NoDup (fa ++ fb ++ fR)).
  { apply nodup_app. split; [exact Da|]. split.
    - apply nodup_app. split; [exact Db|]. split; [exact DR|]. intros x Hb Hr.
      destruct (Nb x Hb) as [H|H]; [exact (D2x x H Hr)|apply H, Ig1, IR, Hr].
    - intros x Ha H. apply in_app_or in H as [H|H].
      + destruct (Nb x H) as [H2|H2]; [|apply H2, Ia, Ha].
        destruct (Na x Ha) as [H3|H3]; [|apply H3, I2, H2]. apply (D1x x H3), in_or_app. auto.
      + destruct (Na x Ha) as [H3|H3]; [|apply H3, IR, H]. apply (D1x x H3), in_or_app. auto. }
  eapply safe_mono; [eapply safe_more; [apply (K cn cd a b h2 s _ O2 Dn)|]| |].
  - intros x Hx. apply in_app_or in Hx as [Hx|Hx]; [apply Ig2, Ia, Hx|].
    apply in_app_or in Hx as [Hx|Hx]; [apply Ib, Hx|apply Ig2, Ig1, IR, Hx].
  - cbn beta. intros x s3 g h3 (new & -> & y & W' & f' & E & O3 & D3 & I3 & q). exists y, W', f'.
    split; [unfold mbind; rewrite Ecn, Ecd; exact E|]. split; [exact O3|]. split; [exact D3|]. split; [|exact q].
    intros z Hz. apply I3, in_app_or in Hz as [Hz|Hz]; apply in_or_app; [auto|right].
    apply in_app_or in Hz as [Hx|Hx]; [apply Ig2, Ia, Hx|].
    apply in_app_or in Hx as [Hx|Hx]; [apply Ib, Hx|apply Ig2, Ig1, IR, Hx].
  - cbn beta. intros e H. unfold mbind. rewrite Ecn, Ecd. exact H.
Qed.
(** Reading an element of a vertical list after making the list. *)
Lemma tri_vlist_look {X Y X1} l ls W R a t (m : M S X1) (k : tnode -> X1 -> M S Y)
    (hk : loc -> X1 -> tnode -> HM X) Q :
  Permutation W (combine ls l ++ R) -> length ls = length l -> In (a, t) W ->
  (forall v x va, tri ((va, v) :: R) (k v x) (hk va x (fl t)) Q) ->
  tri W (v <- vlist_of l ;; x <- m ;; k v x) (va <~ h_vlist_of ls ;; x <~ call m ;; c <~ look a ;; hk va x c) Q.
Proof.
  intros P L I0 K. eapply tri_perm; [exact P|].
  assert (I1 : In (a, t) (combine ls l ++ R)) by (eapply Permutation_in; eassumption). clear P I0.
  intros h s fp O D. destruct (owns_in h _ fp a t O I1) as (f & Ra & If).
  pose proof (owns_bound h _ _ O) as B0.
  apply owns_app in O as (fl1 & fR & E & Ol & OR). rewrite E in D. apply nodup_app in D as (D1 & DR & Dx).
  assert (Rs : reprs h ls l fl1) by (apply owns_reprs; auto).
  assert (Il : incl fl1 fp) by (subst fp; apply incl_appl, incl_refl).
  assert (IR : incl fR fp) by (subst fp; apply incl_appr, incl_refl).
  eapply safe_bind.
  { eapply safe_mono; [apply (safe_pack KVList ls l fl1 fp h s (h_vpack f0 true (fpinf A)) (vpack f0 true (fpinf A) (list_of KVList l)) Rs D1 Il B0)| |].
    - intro b. apply sets_vpack.
    - intros ? ? ? ? q; exact q.
    - cbn beta. intros e H. unfold vlist_of, mbind. rewrite H. reflexivity. }
  cbn beta. intros va s1 g1 h1 (-> & v & Ev & fv & Rv & Dv & Iv & Ig & Nv & B1 & Ag).
  assert (Ev' : vlist_of (S := S) l s = LOk (v, s)) by (unfold vlist_of; rewrite Ev; reflexivity).
  apply safe_call. destruct (m s) as [[x s2]|e] eqn:Em; [|unfold mbind; rewrite Ev', Em; reflexivity].
  cbn [pbind]. eapply safe_look with (f := f).
  { eapply repr_frame; [exact Ra|]. intros z Hz. apply Ag, If, Hz. }
  { intros z Hz. apply Ig, If, Hz. }
  assert (O2 : owns h1 ((va, v) :: R) (fv ++ fR)).
  { constructor; [exact Rv|]. eapply owns_frame; [exact OR|]. intros z Hz. apply Ag, IR, Hz. }
  assert (Dn : NoDup (fv ++ fR)).
  { apply nodup_app. split; [exact Dv|]. split; [exact DR|]. intros z Hz Hr.
    destruct (Nv z Hz) as [H|H]; [exact (Dx z H Hr)|apply H, IR, Hr]. }
  assert (In2 : incl (fv ++ fR) g1).
  { intros z Hz. apply in_app_or in Hz as [Hz|Hz]; [apply Iv, Hz|apply Ig, IR, Hz]. }
  eapply safe_mono; [eapply safe_more; [apply (K v x va h1 s2 _ O2 Dn)|exact In2]| |].
  - cbn beta. intros x' s3 g h3 (new & -> & y & W' & f' & E' & O3 & D3 & I3 & q). exists y, W', f'.
    split; [unfold mbind; rewrite Ev', Em; exact E'|]. split; [exact O3|]. split; [exact D3|]. split; [|exact q].
    intros z Hz. apply I3, in_app_or in Hz as [Hz|Hz]; apply in_or_app; [auto|right; apply In2, Hz].
  - cbn beta. intros e H. unfold mbind. rewrite Ev', Em. exact H.
Qed.

Lemma tri_genfrac ld rd rule sty num den n d st :
  tri [(num, n); (den, d)] (genfrac be ld rd rule sty n d st) (h_genfrac be ld rd rule sty num den st) one.
Proof.
  unfold genfrac, h_genfrac.
  eapply tri_pure. intro th.
  assert (K : forall m a t (W : @world A), match sty with DisplayStyle => m = mret t | TextStyle => m = shrink be t end ->
    tri [(a, t)] m (match sty with DisplayStyle => PRet tt | TextStyle => h_shrink be a end)
      (fun t' _ W => W = [(a, t')])).
  { intros m a t W Hm. destruct sty; subst m; [apply tri_ret; reflexivity|apply tri_shrink]. }
  eapply (tri_use [(num, n)] [(den, d)]); [perm|apply K; [exact []|destruct sty; reflexivity]|].
  clear n. intros n _ W ->.
  eapply (tri_use [(den, d)] [(num, n)]); [perm|apply K; [exact []|destruct sty; reflexivity]|].
  clear d K. intros d _ W ->.
  eapply tri_perm with (W' := [(num, n); (den, d)]); [perm|].
  apply tri_centre_two. intros cn cd a b. rewrite !width_fl. cbv zeta.
  set (w := fmax A (t_width n) (t_width d)).
  eapply (tri_do a cn); [perm|apply sets_hpack|].
  eapply (tri_do b cd (hpack w false cd) _ _ [(a, hpack w false cn)]); [perm|apply sets_hpack|].
  set (cn' := hpack w false cn). set (cd' := hpack w false cd).
  eapply (tri_use [] [(b, cd'); (a, cn')]); [perm|apply tri_hrule|]. intros r ra W ->.
  apply tri_new; [exact I|]. intro v1. apply tri_new; [exact I|]. intro v2. cbn [app].
  eapply (tri_vlist_look _ _ _ [] b cd');
    [rewrite app_nil_r; perm|reflexivity|cbn; tauto|]. intros v m va.
  rewrite height_fl. cbv zeta.
  eapply (tri_do va v); [perm|apply sets_shift|].
  apply tri_new; [exact I|]. intro sp.
  eapply tri_bind; [apply tri_hlist; [perm|reflexivity]|]. intros bx ba W ->.
  destruct (_ || _); [apply tri_auto_sized_delimiter|apply tri_ret; reflexivity].
Qed.

(** ** The visitor *)
Definition vrel (v : @visitor A) (hv : @h_visitor A) (W : @world A) : Prop :=
  Permutation W (combine (hv_nodes hv) (v_nodes v)) /\ length (hv_nodes hv) = length (v_nodes v) /\
  hv_state hv = v_state v /\ hv_math hv = v_math v.
Definition walks (walk : node -> @visitor A -> M S (@visitor A)) (hwalk : node -> @h_visitor A -> HM (@h_visitor A)) (n : node) : Prop :=
  forall v hv W, vrel v hv W -> tri W (walk n v) (hwalk n hv) vrel.

Lemma vrel_push v hv W t a : vrel v hv W -> vrel (push t v) (h_push a hv) ((a, t) :: W).
Proof.
  intros (P & L & E1 & E2). repeat split; auto; cbn.
  - rewrite combine_app by exact L. cbn. eapply Permutation_trans; [|apply Permutation_app_comm]. cbn. apply perm_skip, P.
  - rewrite !app_length. cbn. congruence.
Qed.
Lemma tri_push v hv W (m : M S tnode) (hm : HM loc) :
  vrel v hv W -> tri [] m hm one ->
  tri W (t <- m ;; mret (push t v)) (t <~ hm ;; PRet (h_push t hv)) vrel.
Proof.
  intros V T. eapply (tri_use [] W); [reflexivity|exact T|]. intros t a W' ->. apply tri_ret, vrel_push, V.
Qed.

Lemma tri_mfold {X} (f : X -> @visitor A -> M S (@visitor A)) (hf : X -> @h_visitor A -> HM (@h_visitor A)) l :
  Forall (fun x => forall v hv W, vrel v hv W -> tri W (f x v) (hf x hv) vrel) l ->
  forall v hv W, vrel v hv W -> tri W (mfold f l v) (pfold hf l hv) vrel.
Proof.
  induction 1 as [|x l Hx Hl IH]; intros v hv W V; [apply tri_ret, V|].
  cbn [mfold pfold]. eapply tri_bind; [apply Hx, V|]. intros v' hv' W' V'. apply IH, V'.
Qed.

Section Walk.
Variable walk : node -> @visitor A -> M S (@visitor A).
Variable hwalk : node -> @h_visitor A -> HM (@h_visitor A).

Lemma tri_handle_list l st math : Forall (walks walk hwalk) l ->
  tri [] (handle_list be walk l st math) (h_handle_list be hwalk l st math) one.
Proof.
  intro Hl. eapply tri_bind.
  - apply (tri_mfold walk hwalk l Hl). split; [|split; [|split]]; reflexivity.
  - intros v hv W (P & L & _). apply tri_hlist; assumption.
Qed.

(** The lists inside macro arguments. *)
Definition arg_nodes (n : node) : list node := match n with NArg _ l _ | NOptArg _ l _ => l | _ => [] end.
Definition args_walk (args : list node) : Prop := Forall (fun n => Forall (walks walk hwalk) (arg_nodes n)) args.

Lemma tri_frac_args ld rd rule sty args st math : args_walk args ->
  tri [] (handle_frac_args be walk ld rd rule sty args st math) (h_handle_frac_args be hwalk ld rd rule sty args st math) one.
Proof.
  intro H. unfold handle_frac_args, h_handle_frac_args.
  destruct args as [|[] [|[] args]]; try apply tri_panic.
  inversion H as [|x1 y1 Ha1 H']; subst. inversion H' as [|x2 y2 Ha2 _]; subst. cbn in Ha1, Ha2.
  eapply tri_bind; [apply tri_handle_list, Ha1|]. intros n a W ->.
  eapply (tri_use [] [(a, n)]); [perm|apply tri_handle_list, Ha2|]. intros d b W ->.
  eapply tri_perm; [|apply tri_genfrac]. perm.
Qed.
Lemma tri_frac sty args st math : args_walk args ->
  tri [] (handle_frac be walk sty args st math) (h_handle_frac be hwalk sty args st math) one.
Proof.
  intro H. eapply tri_pure. intro th. apply tri_frac_args, H.
Qed.

Lemma tri_sqrt_box root r body b st :
  tri ((body, b) :: match root with Some ra => [(ra, r)] | None => [] end)
    (sqrt_box be (option_map (fun _ => r) root) b st) (h_sqrt_box be root body st) one.
Proof.
  unfold sqrt_box, h_sqrt_box. eapply tri_pure. intro th.
  eapply tri_look with (t := b); [left; reflexivity|]. rewrite height_fl, depth_fl, shift_fl. cbv zeta.
  set (R := match root with Some ra => [(ra, r)] | None => [] end).
  eapply (tri_use [] ((body, b) :: R)); [perm|apply tri_auto_height_char|]. intros ck ca W' ->. cbn [app].
  eapply tri_look; [left; reflexivity|]. rewrite height_fl, depth_fl, shift_fl, !width_fl. cbv zeta.
  apply tri_new; [exact I|]. intro s1. apply tri_new; [exact I|]. intro s2.
  eapply (tri_use (combine [s1; body; s2] [_; b; _]) ((ca, ck) :: R)); [|apply tri_hlist_of; reflexivity|]; [perm|].
  intros pd pa W' ->. cbn [app].
  eapply (tri_use [] ((pa, pd) :: (ca, ck) :: R)); [perm|apply tri_hrule|]. intros br ba W' ->. cbn [app].
  apply tri_new; [exact I|]. intro fa.
  eapply (tri_use (combine [ba; fa; pa] [br; _; pd]) ((ca, ck) :: R)); [|apply tri_vlist_of; reflexivity|]; [perm|].
  intros rhs ra W' ->. cbn [app].
  eapply (tri_use [(ra, rhs)] ((ca, ck) :: R)); [perm|apply tri_sets, sets_vpack|]. clear rhs. intros rhs _ W' ->. cbn [app].
  assert (Hroot : forall X Y (k : tnode -> M S Y) (hk : loc -> HM X) Q,
    (forall t x, tri [(x, t); (ra, rhs); (ca, ck)] (k t) (hk x) Q) ->
    tri ((ra, rhs) :: (ca, ck) :: R)
      (mbind (match option_map (fun _ => r) root with
              | Some r => r1 <- shrink be r ;; shrink be r1
              | None => mret (hbox (fmul A (t_width ck) (frat 1 2)))
              end) k)
      (pbind (match root with
              | Some r => _ <~ h_shrink be r ;; _ <~ h_shrink be r ;; PRet r
              | None => new (hbox (fmul A (t_width ck) (frat 1 2)))
              end) hk) Q).
  { intros X Y k hk Q K. subst R. destruct root as [rt|]; cbn [option_map].
    - apply tri_assoc, tri_assoc_l.
      eapply (tri_use [(rt, r)] [(ra, rhs); (ca, ck)]); [perm|apply tri_shrink|]. intros r1 _ W' ->.
      apply tri_assoc. eapply (tri_use [(rt, r1)] [(ra, rhs); (ca, ck)]); [perm|apply tri_shrink|]. intros r2 _ W' ->.
      cbn [app]. apply K.
    - apply tri_bret_l. apply tri_new; [exact I|]. intro a. apply K. }
  apply Hroot. clear Hroot R. intros t x.
  eapply (tri_use (combine [x] [t]) [(ra, rhs); (ca, ck)]); [perm|apply tri_hlist_of; reflexivity|].
  intros inner ia W' ->. cbn [app].
  eapply (tri_use (combine [ia] [inner]) [(ra, rhs); (ca, ck)]); [perm|apply tri_vlist_of; reflexivity|].
  intros vl va W' ->. cbn [app].
  eapply (tri_do va vl); [perm|apply sets_shift|].
  apply tri_new; [exact I|]. intro ka. apply tri_hlist; [perm|reflexivity].
Qed.

Lemma tri_sqrt args st math : args_walk args ->
  tri [] (handle_sqrt be walk args st math) (h_handle_sqrt be hwalk args st math) one.
Proof.
  intro H. unfold handle_sqrt, h_handle_sqrt.
  destruct args as [|a1 [|a2 [|a3 args]]]; try apply tri_panic.
  - destruct a1; try apply tri_panic. inversion H as [|x1 y1 Ha1 H']; subst. cbn in Ha1.
    eapply tri_bind; [apply tri_handle_list, Ha1|]. intros b ba W ->.
    apply (tri_sqrt_box None (hbox f0) ba b).
  - inversion H as [|x1 y1 Ha1 H']; subst. inversion H' as [|x2 y2 Ha2 _]; subst.
    destruct a1; try apply tri_panic. cbn in Ha1.
    destruct a2; try (eapply tri_bind; [apply tri_handle_list, Ha1|intros; apply tri_panic]).
    cbn in Ha2. eapply tri_bind; [apply tri_handle_list, Ha1|]. intros r ra W ->.
    eapply (tri_use [] [(ra, r)]); [perm|apply tri_handle_list, Ha2|]. intros b ba W ->.
    apply (tri_sqrt_box (Some ra) r ba b).
  - destruct a1, a2; apply tri_panic.
Qed.

Lemma tri_overline_box body b st : tri [(body, b)] (overline_box be b st) (h_overline_box be body st) one.
Proof.
  unfold overline_box, h_overline_box. eapply tri_pure. intro th.
  eapply tri_look with (t := b); [left; reflexivity|]. rewrite height_fl, depth_fl, shift_fl. cbv zeta.
  eapply (tri_use [] [(body, b)]); [perm|apply tri_hrule|]. intros br ba W' ->. cbn [app].
  apply tri_new; [exact I|]. intro fa.
  eapply (tri_use (combine [body] [b]) [(fa, glue_fill); (ba, br)]); [perm|apply tri_hlist_of; reflexivity|].
  intros inner ia W' ->. cbn [app].
  eapply (tri_use (combine [ba; fa; ia] [br; glue_fill; inner]) []); [perm|apply tri_vlist_of; reflexivity|].
  intros rhs ra W' ->. cbn [app].
  eapply tri_bind; [apply tri_sets, sets_vpack|]. clear rhs. intros rhs _ W' ->.
  apply tri_hlist; [perm|reflexivity].
Qed.
Lemma tri_overline args st math : args_walk args ->
  tri [] (handle_overline be walk args st math) (h_handle_overline be hwalk args st math) one.
Proof.
  intro H. unfold handle_overline, h_handle_overline. destruct args as [|[] args]; try apply tri_panic.
  inversion H as [|x1 y1 Ha1 H']; subst. cbn in Ha1.
  eapply tri_bind; [apply tri_handle_list, Ha1|]. intros b ba W ->. apply tri_overline_box.
Qed.

Lemma tri_handle_macro h pos name args st math : args_walk args ->
  tri [] (handle_macro range be parse_float expr walk h pos name args st math)
    (h_handle_macro be range parse_float expr hwalk h pos name args st math) one.
Proof.
  intro H. destruct h; cbn [handle_macro h_handle_macro].
  - apply tri_handle_space.
  - apply tri_handle_symbol.
  - apply tri_handle_custom.
  - apply tri_handle_function.
  - apply tri_frac, H.
  - apply tri_frac, H.
  - apply tri_frac, H.
  - apply tri_frac_args, H.
  - apply tri_sqrt, H.
  - apply tri_overline, H.
Qed.
End Walk.

Lemma tri_handle_sym h pos text st math :
  tri [] (handle_sym range be expr h pos text st math) (h_handle_sym be range expr h pos text st math) one.
Proof.
  destruct h; cbn [handle_sym h_handle_sym]; try apply tri_panic; [apply tri_handle_space|apply tri_handle_symbol].
Qed.

Notation go := (go range be parse_float expr).
Notation h_go := (h_go be range parse_float expr).

Lemma tri_go n : (forall w, walks (go w) (h_go w) n) /\ Forall (walks (go true) (h_go true)) (arg_nodes n).
Proof.
  induction n using node_ind'.
  all: try (assert (HT : forall w, Forall (walks (go w) (h_go w)) l)
              by (intro w; apply Forall_forall; intros x Hx; eapply Forall_forall in H; [|exact Hx]; apply H)).
  all: split; [intros w v hv W V; pose proof V as (P & L & E1 & E2); cbn [Mtex.go Heap.h_go]|cbn [arg_nodes]; try apply HT; constructor].
  all: try apply tri_panic.
  - destruct w; [apply tri_panic|apply tri_ret, V].
  - destruct w; [|apply tri_ret, V]. apply tri_mfold; [apply HT|exact V].
  - destruct nm as [[pos name]|]; [|apply tri_panic].
    eapply tri_pure. intros [h|]; [|apply tri_panic].
    rewrite E1, E2. apply tri_push; [exact V|]. apply tri_handle_macro.
    unfold args_walk. eapply Forall_impl; [|exact H]. intros x [_ Hx]. exact Hx.
  - eapply tri_bind.
    + apply tri_mfold; [apply HT|]. rewrite E1. split; [exact P|]. split; [exact L|]. split; reflexivity.
    + intros v' hv' W' (P' & L' & E1' & E2'). apply tri_ret. cbn. rewrite E1, E2, E1'.
      split; [exact P'|]. split; [exact L'|]. split; reflexivity.
  - rewrite E1, E2. eapply (tri_use [] W); [reflexivity|apply tri_new_chars|]. intros l ls W' [P' L'].
    eapply (tri_use (combine ls l) W); [apply Permutation_app_tail, P'|apply tri_hlist_of, L'|].
    intros t a W'' ->. apply tri_ret, vrel_push, V.
  - apply tri_mfold; [|exact V]. apply Forall_forall. intros x _ v1 hv1 W1 V1. pose proof V1 as (_ & _ & F1 & F2).
    rewrite F1, F2. apply tri_push; [exact V1|]. apply tri_handle_symbol.
  - rewrite E2. destruct (v_math v).
    + eapply tri_pure. intros [h|]; [|apply tri_panic].
      rewrite E1. apply tri_push; [exact V|]. apply tri_handle_sym.
    + rewrite E1. eapply tri_pure. intro c. apply tri_new; [exact I|]. intro a.
      apply tri_ret, vrel_push, V.
Qed.

Lemma tri_typeset l size dpi :
  tri [] (typeset range be parse_float expr l size dpi) (h_typeset be range parse_float expr l size dpi) one.
Proof.
  eapply tri_bind.
  - apply (tri_go (NList l)). split; [|split; [|split]]; reflexivity.
  - intros v hv W (P & L & _). apply tri_hlist; assumption.
Qed.

End HeapSim2.
