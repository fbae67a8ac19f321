(** C60-C63: where fractions, overlines, radicals and delimiters are drawn. *)
From Coq Require Import ZArith String Ascii List Bool Lia QArith Qcanon Lqa.
From Verif Require Import Utf8 Token Lexer Ast Parser Symbols PropSymbols Arith Exact OrderLaws Box Ship ShipSpec ShipFacts ShipFacts2 PackSpec PackFacts ExactFacts
  PropPack PropShip Mtex MtexTable MtexSpec FracSpec MtexFacts MtexFacts2 MtexFacts3 MtexFacts4 MtexFacts5 PropMtex RadFacts GeomSpec GeomFacts GeomFacts2.
Import ListNotations.
Local Open Scope string_scope.
Local Open Scope list_scope.
Local Open Scope Z_scope.

(** ** The boxes of overlines and radicals, in any arithmetic *)
Section Structure.
Context {A : arith} {S : Type}.
Variable range : Symbols.gset -> list string.
Variable be : @backend A S.
Variable parse_float : string -> option (Arith.F A).
Variable expr : string.
Notation go := (go range be parse_float expr).
Notation argument := (argument range be parse_float expr).

Lemma argument_stiff l v s t s' : argument l v s t s' -> stiff t.
Proof.
  intros (ns & s1 & _ & E). unfold hlist_of in E. apply bind_ok in E as (l' & s2 & _ & E). apply ret_ok in E as [-> ->]. exact I.
Qed.

Theorem C61_overline_generic : fair range -> feqb A f0 f0 = true -> fltb A (fopp A f1) f0 = true ->
  forall w p a l b rest v s v' s',
  go w (NMacro (Some (p, "\overline")) (NArg a l b :: rest)) v s = LOk (v', s') ->
  exists body s1 th s2 rule t,
    argument l v s body s1 /\ underline be v s1 = LOk (th, s2) /\ underline be v s2 = LOk (rule, s') /\
    v_nodes v' = v_nodes v ++ [t] /\ overlined body th rule (extra (v_state v)) t.
Proof.
  intros FR Z0 M1 * G.
  rewrite (go_macro range FR be parse_float expr w p "\overline" _ HOverline) in G by (vm_compute; reflexivity).
  apply bind_ok in G as (t & s9 & G & R). apply ret_ok in R as [-> ->].
  cbn [Mtex.handle_macro handle_overline] in G. apply bind_ok in G as (body & s1 & G1 & G). apply argument_ok in G1.
  apply (overline_ok be Z0) in G as (th & s2 & rule & U1 & U2 & OV); [|assumption|eapply argument_stiff; exact G1].
  exists body, s1, th, s2, rule, t. do 3 (split; [assumption|]). split; [reflexivity|assumption].
Qed.

Theorem C62_sqrt_generic : fair range -> feqb A f0 f0 = true -> fltb A (fopp A f1) f0 = true ->
  forall w p args v s v' s',
  go w (NMacro (Some (p, "\sqrt")) args) v s = LOk (v', s') ->
  exists root s1 body s2 th s3 check s4 rule s5 r t a l b,
    match args with
    | [NArg a' l' b'] => root = None /\ s1 = s /\ (a, l, b) = (a', l', b')
    | [NOptArg _ l1 _; NArg a' l' b'] => (exists ix, root = Some ix /\ argument l1 v s ix s1) /\ (a, l, b) = (a', l', b')
    | _ => False
    end /\
    argument l v s1 body s2 /\ underline be v s2 = LOk (th, s3) /\
    auto_height_char be "\__sqrt__" (fadd A (above body) (fmul A (fofZ A 5) th)) (beneath body) (v_state v) f0 s3 = LOk (check, s4) /\
    underline be v s4 = LOk (rule, s5) /\ index_of be root check s5 r s' /\
    v_nodes v' = v_nodes v ++ [t] /\ radical r body check th rule (extra (v_state v)) t.
Proof.
  intros FR Z0 M1 * G.
  rewrite (go_macro range FR be parse_float expr w p "\sqrt" _ HSqrt) in G by (vm_compute; reflexivity).
  apply bind_ok in G as (t & s9 & G & R). apply ret_ok in R as [-> ->].
  cbn [Mtex.handle_macro] in G. unfold handle_sqrt in G.
  assert (ONE : forall a l b s0 (root : option (@Box.tnode A)) s1, (forall r, root = Some r -> stiff r) ->
     (body <- handle_list be (go true) l (v_state v) (v_math v) ;; sqrt_box be root body (v_state v)) s1 = LOk (t, s9) ->
     match args with
     | [NArg a' l' b'] => root = None /\ s1 = s0 /\ (a, l, b) = (a', l', b')
     | [NOptArg _ l1 _; NArg a' l' b'] => (exists ix, root = Some ix /\ argument l1 v s0 ix s1) /\ (a, l, b) = (a', l', b')
     | _ => False
     end -> s0 = s ->
  exists root s1 body s2 th s3 check s4 rule s5 r t0 a l b,
    match args with
    | [NArg a' l' b'] => root = None /\ s1 = s /\ (a, l, b) = (a', l', b')
    | [NOptArg _ l1 _; NArg a' l' b'] => (exists ix, root = Some ix /\ argument l1 v s ix s1) /\ (a, l, b) = (a', l', b')
    | _ => False
    end /\
    argument l v s1 body s2 /\ underline be v s2 = LOk (th, s3) /\
    auto_height_char be "\__sqrt__" (fadd A (above body) (fmul A (fofZ A 5) th)) (beneath body) (v_state v) f0 s3 = LOk (check, s4) /\
    underline be v s4 = LOk (rule, s5) /\ index_of be root check s5 r s9 /\
    v_nodes (push t v) = v_nodes v ++ [t0] /\ radical r body check th rule (extra (v_state v)) t0).
  { intros a l b s0 root s1 SR E MA ->. apply bind_ok in E as (body & s2 & E1 & E). apply argument_ok in E1.
    apply (sqrt_ok be Z0) in E as (th & s3 & check & s4 & rule & s5 & r & U1 & AH & U2 & IX & RA); try assumption; [|eapply argument_stiff; exact E1].
    exists root, s1, body, s2, th, s3, check, s4, rule, s5, r, t, a, l, b. do 6 (split; [assumption|]). split; [reflexivity|assumption]. }
  destruct args as [|x args]; [discriminate G|]. destruct args as [|y args].
  - destruct x; try discriminate G. eapply ONE; [|exact G|auto|reflexivity]. intros r E. discriminate E.
  - destruct args; [|destruct x; try discriminate G; destruct y; discriminate G].
    destruct x; try discriminate G. destruct y; try (apply bind_ok in G as (? & ? & _ & G); discriminate G).
    apply bind_ok in G as (ix & s1 & G1 & G). apply argument_ok in G1. pose proof (argument_stiff _ _ _ _ _ G1) as SX.
    eapply ONE; [|exact G|split; [exists ix; split; [reflexivity|exact G1]|reflexivity]|reflexivity]. now intros r [= <-].
Qed.
End Structure.

(** An unshifted horizontal list of non-negative height and depth. *)
Definition flat (t : @Box.tnode exact) : Prop :=
  exists b gs l, t = TL KHList b (Fin 0) gs l /\ ge0 (b_height b) /\ ge0 (b_depth b).
Lemma flat_size t w h d : flat t -> size_of t w h d -> hbox_of t w h d /\ (0 <= h)%Qc /\ (0 <= d)%Qc.
Proof.
  intros (b & gs & l & -> & H1 & H2) (E1 & E2 & E3). cbn [t_width t_height t_depth] in *. rewrite E2 in H1. rewrite E3 in H2.
  split; [|split; assumption]. exists b, gs, l. auto.
Qed.
Lemma ge0_scale x c : ge0 x -> (0 < c)%Qc -> ge0 (xmul x (Fin c)).
Proof.
  intros H P. destruct x as [q| | |]; cbn [ge0] in H; try contradiction.
  - cbn. replace 0%Qc with (0 * c)%Qc by ring. apply Qcmult_le_compat_r; [assumption|]. now apply Qclt_le_weak.
  - assert (Q : qltb 0 c = true) by now apply qltb_iff. cbn [xmul]. unfold xinf_mul. destruct (qeqb c 0); [exact I|]. rewrite Q. exact I.
  - exact I.
Qed.

Section Geom.
Context {S : Type}.
Variable range : Symbols.gset -> list string.
Variable be : @backend exact S.
Variable parse_float : string -> option xq.
Variable expr : string.
Notation go := (go range be parse_float expr).
Notation argument := (argument range be parse_float expr).

Lemma argument_flat l v s t s' : argument l v s t s' -> flat t.
Proof.
  intros (ns & s1 & _ & E). unfold hlist_of in E. apply bind_ok in E as (l' & s2 & _ & E). apply ret_ok in E as [-> ->].
  destruct (natural_h_box l' _ eq_refl) as (b & gs & E & _ & P). exists b, gs, l'. auto.
Qed.
Lemma shrink_flat t s t' s' : flat t -> shrink be t s = LOk (t', s') -> flat t'.
Proof.
  intros (b & gs & l & -> & H1 & H2) E. cbn [shrink] in E. apply bind_ok in E as (l' & s1 & _ & E). apply ret_ok in E as [-> _].
  assert (P : (0 < Q2Qc (7 # 10))%Qc) by reflexivity.
  assert (SF : @shrink_factor exact = Fin (Q2Qc (7 # 10))) by reflexivity.
  assert (G : ge0 (b_height (box_shrink b)) /\ ge0 (b_depth (box_shrink b))).
  { unfold box_shrink. destruct (_ <? _); cbn [scale_box box_size b_height b_depth]; [|auto]. rewrite SF. split; now apply ge0_scale. }
  destruct G as [G1 G2]. destruct (_ <? _).
  - exists (box_shrink b). do 2 eexists. split; [|split; assumption]. rewrite SF.
    change (fmul exact (Fin 0) (Fin (Q2Qc (7 # 10)))) with (Fin (0 * Q2Qc (7 # 10))). rewrite Qcmult_0_l. reflexivity.
  - exists (box_shrink b). do 2 eexists. split; [reflexivity|split; assumption].
Qed.

Lemma Z0x : feqb exact f0 f0 = true. Proof. reflexivity. Qed.
Lemma M1x : fltb exact (fopp exact f1) f0 = true. Proof. reflexivity. Qed.

(** ** C60: fractions *)
Theorem C60_fraction : fair range -> forall w p name a1 l1 b1 a2 l2 b2 v s v' s',
  In name ["\frac"; "\tfrac"; "\dfrac"] ->
  go w (NMacro (Some (p, name)) [NArg a1 l1 b1; NArg a2 l2 b2]) v s = LOk (v', s') ->
  exists rule s1 num s2 den s3 th s4 num' s5 den' s6 t,
    underline be v s = LOk (rule, s1) /\
    argument l1 v s1 num s2 /\ argument l2 v s2 den s3 /\
    underline be v s3 = LOk (th, s4) /\
    (if String.eqb name "\dfrac" then num' = num /\ den' = den /\ s6 = s4
     else shrink be num s4 = LOk (num', s5) /\ shrink be den s5 = LOk (den', s6)) /\
    v_nodes v' = v_nodes v ++ [t] /\
    forall r h wn hn dn wd hd dd,
      rule = Fin r -> (0 <= r)%Qc -> th = Fin h -> (0 < h)%Qc ->
      size_of num' wn hn dn -> size_of den' wd hd dd ->
      (this wn - this wd <= 2 * billion)%Q -> (this wd - this wn <= 2 * billion)%Q ->
      exists me,
        be_metrics be "=" (mk_font (f_name (st_font (v_state v))) "it" (f_size (st_font (v_state v)))) (st_dpi (v_state v)) true s6 = LOk (me, s') /\
        forall axis, middle me = Fin axis ->
        fraction_drawn num' den' wn dn wd hd h r axis t /\
        size_of t (qmax 0 (qmax wn wd) + (h + h)) (qmax 0 (axis + h + r + dn + hn)) (qmax 0 (hd + dd + (h + h + h) - axis)).
Proof.
  intros FR * N G. apply (C45_frac_generic range be parse_float expr FR Z0x) in G; [|assumption].
  destruct G as (rule & s1 & num & s2 & den & s3 & th & s4 & num' & s5 & den' & s6 & t & U1 & A1 & A2 & U2 & SH & VN & G).
  exists rule, s1, num, s2, den, s3, th, s4, num', s5, den', s6, t. do 6 (split; [assumption|]).
  intros * -> R0 -> H0 SN SD B1 B2.
  destruct G as (me & M & ST). { change (qltb r 0 = false). now apply qltb_false. }
  exists me. split; [assumption|]. intros axis AX. rewrite AX in ST.
  assert (FL : flat num' /\ flat den').
  { destruct (String.eqb name "\dfrac").
    - destruct SH as (-> & -> & _). split; eapply argument_flat; eassumption.
    - destruct SH as (E1 & E2). split; eapply shrink_flat; try eassumption; eapply argument_flat; eassumption. }
  destruct FL as [F1 F2]. destruct (flat_size _ _ _ _ F1 SN) as (HB1 & P1 & P2), (flat_size _ _ _ _ F2 SD) as (HB2 & P3 & P4).
  now apply frac_drawn with (hn := hn) (dd := dd).
Qed.

(** Binomials: the same without a bar, between parentheses. *)
Theorem C60_binom : fair range -> forall w p a1 l1 b1 a2 l2 b2 v s v' s',
  go w (NMacro (Some (p, "\binom")) [NArg a1 l1 b1; NArg a2 l2 b2]) v s = LOk (v', s') ->
  exists num s2 den s3 th s4 num' s5 den' s6 me s7 bx t,
    argument l1 v s num s2 /\ argument l2 v s2 den s3 /\
    underline be v s3 = LOk (th, s4) /\
    shrink be num s4 = LOk (num', s5) /\ shrink be den s5 = LOk (den', s6) /\
    be_metrics be "=" (mk_font (f_name (st_font (v_state v))) "it" (f_size (st_font (v_state v)))) (st_dpi (v_state v)) true s6 = LOk (me, s7) /\
    v_nodes v' = v_nodes v ++ [t] /\ parenthesised be (v_state v) bx s7 t s' /\
    forall h axis wn hn dn wd hd dd,
      th = Fin h -> (0 < h)%Qc -> middle me = Fin axis -> size_of num' wn hn dn -> size_of den' wd hd dd ->
      (this wn - this wd <= 2 * billion)%Q -> (this wd - this wn <= 2 * billion)%Q ->
      fraction_drawn num' den' wn dn wd hd h 0 axis bx /\
      size_of bx (qmax 0 (qmax wn wd) + (h + h)) (qmax 0 (axis + h + 0 + dn + hn)) (qmax 0 (hd + dd + (h + h + h) - axis)).
Proof.
  intros FR * G. apply (C45_binom_generic range be parse_float expr FR Z0x) in G; [|reflexivity].
  destruct G as (num & s2 & den & s3 & th & s4 & num' & s5 & den' & s6 & me & s7 & bx & t & A1 & A2 & U & E1 & E2 & M & VN & ST & PA).
  exists num, s2, den, s3, th, s4, num', s5, den', s6, me, s7, bx, t. do 8 (split; [assumption|]).
  intros * TH H0 AX SN SD B1 B2. subst th. rewrite AX in ST.
  assert (F1 : flat num') by exact (shrink_flat _ _ _ _ (argument_flat _ _ _ _ _ A1) E1).
  assert (F2 : flat den') by exact (shrink_flat _ _ _ _ (argument_flat _ _ _ _ _ A2) E2).
  destruct (flat_size _ _ _ _ F1 SN) as (HB1 & P1 & P2), (flat_size _ _ _ _ F2 SD) as (HB2 & P3 & P4).
  rewrite f0_exact in ST. apply frac_drawn with (hn := hn) (dd := dd); try assumption. apply Qcle_refl.
Qed.

(** ** C61: overlines *)
Theorem C61_overline_exact : fair range -> forall w p a l b rest v s v' s',
  go w (NMacro (Some (p, "\overline")) (NArg a l b :: rest)) v s = LOk (v', s') ->
  exists body s1 th s2 rule t,
    argument l v s body s1 /\ underline be v s1 = LOk (th, s2) /\ underline be v s2 = LOk (rule, s') /\
    v_nodes v' = v_nodes v ++ [t] /\
    forall wb h d k e, size_of body wb h d -> th = Fin k -> rule = Fin k -> (0 <= k)%Qc ->
      extra (v_state v) = Fin e -> (0 <= k + k + e)%Qc -> (this (k + k + e)%Qc <= billion)%Q ->
      overline_drawn body wb h k e t /\ size_of t (qmax 0 wb) (h + (k + k + k) + e) d.
Proof.
  intros FR * G. apply (C61_overline_generic range be parse_float expr FR Z0x M1x) in G.
  destruct G as (body & s1 & th & s2 & rule & t & A1 & U1 & U2 & VN & OV).
  exists body, s1, th, s2, rule, t. do 4 (split; [assumption|]).
  intros * SB -> -> K0 EX E0 EB. rewrite EX in OV.
  destruct (flat_size _ _ _ _ (argument_flat _ _ _ _ _ A1) SB) as (HB & P1 & P2).
  now apply overlined_drawn.
Qed.

(** ** C63: delimiters *)
Lemma scale_exact (f : @font exact) k : scale_font k f = mk_font (f_name f) (f_type f) (fmul exact (f_size f) k). Proof. reflexivity. Qed.

Theorem C63_auto_height_exact : forall c (H D : Qc) st s t s',
  f_name (st_font st) <> "" ->
  auto_height_char be c (Fin H) (Fin D) st f0 s = LOk (t, s') ->
  exists x s0 m s1,
    be_xheight be (st_font st) (st_dpi st) s = LOk (x, s0) /\
    be_metrics be c (st_font st) (st_dpi st) true s0 = LOk (m, s1) /\
    forall i g : Qc, m_iceberg m = Fin i -> m_height m = Fin g -> g <> 0%Qc ->
    let k := ((H + D) / g)%Qc in
    let ft := mk_font (f_name (st_font st)) (f_type (st_font st)) (fmul exact (f_size (st_font st)) (Fin k)) in
    exists m',
      be_metrics be c ft (st_dpi st) true s1 = LOk (m', s') /\
      (m_iceberg m' = Fin (k * i) -> m_height m' = Fin (k * g) -> (0 <= k * i <= k * g)%Qc ->
       (exists b sc gs ch kerns, t = TL KHList b (Fin sc) gs (TChar ch :: kerns) /\ c_sym ch = c /\ c_font ch = ft) /\
       above t = Fin H /\ beneath t = Fin D).
Proof.
  intros * NM E. unfold auto_height_char in E.
  apply bind_ok in E as (x & s0 & E0 & E). apply bind_ok in E as (ch & s1 & E1 & E).
  unfold new_char in E1. apply bind_ok in E1 as (m & s2 & M1 & E1). apply ret_ok in E1 as [-> ->].
  cbn [c_height c_depth] in E.
  exists x, s0, m, s2. split; [exact E0|]. split; [exact M1|]. intros i g EI EG G0 k ft.
  assert (NE : negb (String.eqb (f_name (st_font st)) "") = true) by (apply negb_true_iff, String.eqb_neq; assumption).
  rewrite NE, Z0x in E.
  assert (KE : fdiv exact (fadd exact (Fin H) (Fin D)) (fadd exact (m_iceberg m) (fopp exact (fsub exact (m_iceberg m) (m_height m)))) = Fin k).
  { rewrite EI, EG. fins. replace (i + - (i - g))%Qc with g by ring. cbn [fdiv exact xdiv].
    destruct (qeqb g 0) eqn:Q; [apply qeqb_iff in Q; contradiction|]. reflexivity. }
  rewrite KE in E. rewrite scale_exact in E. fold ft in E.
  apply bind_ok in E as ((ch2, sc) & s3 & E3 & E). apply bind_ok in E3 as (ch' & s4 & E4 & E3). apply ret_ok in E3 as [E3 ->].
  pose proof (f_equal fst E3) as X1. pose proof (f_equal snd E3) as X2. cbn [fst snd] in X1, X2. clear E3. subst ch2 sc.
  unfold new_char in E4. apply bind_ok in E4 as (m' & s5 & M2 & E4). apply ret_ok in E4 as [-> ->]. cbn [st_font st_dpi] in *.
  cbn [fst snd c_depth] in E. apply bind_ok in E as (hl & s6 & E6 & E). apply ret_ok in E as [-> ->].
  unfold hlist_of in E6. apply bind_ok in E6 as (l & s7 & E7 & E6). apply ret_ok in E6 as [-> ->].
  cbn [kern_list kerning hd_error] in E7. unfold mbind, mret in E7. injection E7 as E7 E8.
  exists m'. split; [now rewrite <- E8|]. intros EI' EG' [P1 P2].
  set (c' := mk_char c _ _ _ _ _ _ _ _) in *.
  assert (LK : exists kerns, l = TChar c' :: kerns /\ forall d : @dims exact, d_h (fold_left (fun d x => hpack_dims x d) kerns d) = d_h d /\
     d_d (fold_left (fun d x => hpack_dims x d) kerns d) = d_d d).
  { rewrite <- E7. destruct (negb _); eexists; (split; [reflexivity|]); intros d; split; reflexivity. }
  destruct LK as (kerns & -> & KD). cbn [hpack list_of set_shift].
  assert (SC : fsub exact (Fin D) (fopp exact (fsub exact (m_iceberg m') (m_height m'))) = Fin (D - (k * g - k * i))).
  { rewrite EI', EG'. fins. apply f_equal. ring. }
  rewrite SC. cbn [fold_left].
  match goal with |- context [fold_left ?f kerns ?d] => destruct (KD d) as [KH KDD]; set (dd := fold_left f kerns d) in * end.
  assert (DH : d_h dd = Fin (k * i)).
  { rewrite KH. cbn [hpack_dims c' c_height d_h dims0]. rewrite EI', f0_exact, fmax_fin. apply f_equal. now apply qmax_r. }
  assert (DD : d_d dd = Fin (k * g - k * i)).
  { rewrite KDD. cbn [hpack_dims c' c_depth d_d dims0]. rewrite EI', EG', f0_exact. fins. rewrite fmax_fin. apply f_equal.
    rewrite qmax_r; [ring|]. replace (- (k * i - k * g))%Qc with (k * g - k * i)%Qc by ring. qc. }
  split; [|split].
  - do 5 eexists. split; [reflexivity|]. split; reflexivity.
  - unfold above. cbn [t_height t_shift b_height]. rewrite DH. fins. apply f_equal. unfold k. field. assumption.
  - unfold beneath. cbn [t_depth t_shift b_depth]. rewrite DD. fins. apply f_equal. ring.
Qed.

(** ** C62: radicals *)
Theorem C62_sqrt_exact : fair range -> forall w p args v s v' s',
  go w (NMacro (Some (p, "\sqrt")) args) v s = LOk (v', s') ->
  exists root s1 body s2 th s3 check s4 rule s5 r t a l b,
    match args with
    | [NArg a' l' b'] => root = None /\ s1 = s /\ (a, l, b) = (a', l', b')
    | [NOptArg _ l1 _; NArg a' l' b'] => (exists ix, root = Some ix /\ argument l1 v s ix s1) /\ (a, l, b) = (a', l', b')
    | _ => False
    end /\
    argument l v s1 body s2 /\ underline be v s2 = LOk (th, s3) /\
    auto_height_char be "\__sqrt__" (fadd exact (above body) (fmul exact (fofZ exact 5) th)) (beneath body) (v_state v) f0 s3 = LOk (check, s4) /\
    underline be v s4 = LOk (rule, s5) /\ index_of be root check s5 r s' /\
    v_nodes v' = v_nodes v ++ [t] /\
    forall wb h d k e wr hr dr wc sc bc gc lc,
      size_of body wb h d -> th = Fin k -> rule = Fin k -> (0 <= k)%Qc ->
      extra (v_state v) = Fin e -> (0 <= k + k + k + k + e)%Qc -> (this (k + k + k + k + e)%Qc <= billion)%Q ->
      check = TL KHList bc (Fin sc) gc lc -> b_width bc = Fin wc ->
      above check = fadd exact (above body) (fmul exact (fofZ exact 5) th) -> beneath check = beneath body ->
      match root with None => wr = (wc * Q2Qc (1 # 2))%Qc | Some _ => size_of r wr hr dr end ->
      radical_drawn r body check wr wb wc sc (h + (k + k + k + k + k)) k e t.
Proof.
  intros FR * G. apply (C62_sqrt_generic range be parse_float expr FR Z0x M1x) in G.
  destruct G as (root & s1 & body & s2 & th & s3 & check & s4 & rule & s5 & r & t & a & l & b & MA & A1 & U1 & AH & U2 & IX & VN & RA).
  exists root, s1, body, s2, th, s3, check, s4, rule, s5, r, t, a, l, b. do 7 (split; [assumption|]).
  intros * SB -> -> K0 EX E0 EB EC WC AB BE RT. rewrite EX in RA.
  destruct (flat_size _ _ _ _ (argument_flat _ _ _ _ _ A1) SB) as (HB & P1 & P2).
  assert (AB' : above check = Fin (h + (k + k + k + k + k))).
  { rewrite AB. destruct HB as (bb & gb & lb & -> & E1 & E2 & E3). unfold above. cbn [t_height t_shift]. rewrite E2. fins. apply f_equal. ring. }
  assert (BE' : beneath check = Fin d).
  { rewrite BE. destruct HB as (bb & gb & lb & -> & E1 & E2 & E3). unfold beneath. cbn [t_depth t_shift]. rewrite E3. fins. apply f_equal. ring. }
  assert (IB : indexbox r wr).
  { destruct root as [ix|].
    - right. exists hr, dr. destruct IX as (x1 & s6 & X1 & X2).
      assert (FL : flat ix).
      { destruct args as [|x [|y [|z args]]]; try contradiction; destruct x; try contradiction; try (destruct y; contradiction).
        - destruct MA as (X & _). discriminate X.
        - destruct y; try contradiction. destruct MA as ((ix' & IX' & A2) & _). injection IX' as <-. exact (argument_flat _ _ _ _ _ A2). }
      apply (flat_size r); [|assumption]. eapply shrink_flat; [|exact X2]. eapply shrink_flat; [exact FL|exact X1].
    - left. destruct IX as [-> _]. rewrite EC, RT. cbn [t_width]. rewrite WC, frat_half. reflexivity. }
  assert (EQ : (h + (k + k + k + k + k) + e - k - h = k + k + k + k + e)%Qc) by ring.
  eapply (radicals_drawn r body check wr wb h d bc gc lc wc sc); try eassumption.
  - exists d. split; [assumption|apply Qcle_refl].
  - now rewrite EQ.
  - now rewrite EQ.
Qed.
End Geom.

Corollary C61_overline_float64 : forall S range (be : @backend float64 S) parse_float expr, fair range ->
  forall w p a l b rest v s v' s',
  go range be parse_float expr w (NMacro (Some (p, "\overline")) (NArg a l b :: rest)) v s = LOk (v', s') ->
  exists body s1 th s2 rule t,
    argument range be parse_float expr l v s body s1 /\ underline be v s1 = LOk (th, s2) /\ underline be v s2 = LOk (rule, s') /\
    v_nodes v' = v_nodes v ++ [t] /\ overlined body th rule (extra (v_state v)) t.
Proof. intros S range be pf expr FR. apply C61_overline_generic; [exact FR|reflexivity|reflexivity]. Qed.

Corollary C62_sqrt_float64 : forall S range (be : @backend float64 S) parse_float expr, fair range ->
  forall w p args v s v' s',
  go range be parse_float expr w (NMacro (Some (p, "\sqrt")) args) v s = LOk (v', s') ->
  exists root s1 body s2 th s3 check s4 rule s5 r t a l b,
    match args with
    | [NArg a' l' b'] => root = None /\ s1 = s /\ (a, l, b) = (a', l', b')
    | [NOptArg _ l1 _; NArg a' l' b'] => (exists ix, root = Some ix /\ argument range be parse_float expr l1 v s ix s1) /\ (a, l, b) = (a', l', b')
    | _ => False
    end /\
    argument range be parse_float expr l v s1 body s2 /\ underline be v s2 = LOk (th, s3) /\
    auto_height_char be "\__sqrt__" (fadd float64 (above body) (fmul float64 (fofZ float64 5) th)) (beneath body) (v_state v) f0 s3 = LOk (check, s4) /\
    underline be v s4 = LOk (rule, s5) /\ index_of be root check s5 r s' /\
    v_nodes v' = v_nodes v ++ [t] /\ radical r body check th rule (extra (v_state v)) t.
Proof. intros S range be pf expr FR. apply C62_sqrt_generic; [exact FR|reflexivity|reflexivity]. Qed.

(** ** Cases: a font of squares, 1 wide, 3/4 above and 1/4 below the baseline, as
    large as the font; rules are a tenth of the font size. *)
Definition squares : @backend exact unit :=
  mk_backend unit (fun _ _ _ _ _ => mret (Fin 0%Qc))
    (fun _ ft _ _ => let z := f_size ft in
       let a := fmul exact z (frat 3 4) in let b := fmul exact z (frat 1 4) in
       mret (mk_metrics (A:=exact) z z z (Fin 0%Qc) z (fopp exact b) a a false))
    (fun ft _ => mret (f_size ft)) (fun ft _ => mret (fmul exact (f_size ft) (frat 1 10))).

(** The drawing calls of a formula set at 20 points and 60 dpi: symbol and
    rounded coordinates in hundredths. *)
Definition cents (x : xq) : Z := match x with Fin q => qround (q * Q2Qc (100 # 1)) | _ => -1 end.
Definition calls (expr : string) : option (list (string * list Z)) :=
  match mtex_parse ascii_only id_range squares (fun _ => None) expr (xofZ 20) (xofZ 60) tt with
  | Some (LOk (t, None, _)) =>
    match ship_call (Fin 0%Qc) (Fin 0%Qc) t with
    | LOk (_, st) => Some (map (fun e => match e with
        | EGlyph x y f c _ => (c, [cents x; cents y; cents (f_size f)])
        | ERect x1 y1 x2 y2 => ("rule", [cents x1; cents y1; cents x2; cents y2]) end) (s_out st))
    | _ => None
    end
  | _ => None
  end.
(** Baseline 29, axis 24, numerator bottom 20, bar from 26 to 28, denominator top
    30; the numerator is centred over the 40 wide denominator. *)
Example C60_case : calls "$\dfrac{1}{22}$" =
  Some [("1", [1000; 1500; 2000]); ("rule", [0; 2600; 4000; 2800]); ("2", [0; 4500; 2000]); ("2", [2000; 4500; 2000])].
Proof. vm_compute. reflexivity. Qed.
Example C60_binom_case : calls "$\binom{1}{22}$" =
  Some [("(", [0; 2700; 3600]); ("1", [4300; 1050; 1400]); ("2", [3600; 3250; 1400]); ("2", [5000; 3250; 1400]); (")", [6800; 2700; 3600])].
Proof. vm_compute. reflexivity. Qed.
(** Baseline 22, body top 7, bar from 2 = 7 - (2 + 2 + 1) to 4. *)
Example C61_case : calls "$\overline{x}$" = Some [("rule", [0; 200; 2000; 400]); ("x", [0; 2200; 2000])].
Proof. vm_compute. reflexivity. Qed.
(** Baseline 26, check of size 30 = 15 + 5 + 5 * 2, index at 26 - 3/5 * 25. *)
Example C62_case : calls "$\sqrt[3]{x}$" =
  Some [("3", [0; 1100; 980]); ("\__sqrt__", [-520; 2350; 3000]); ("rule", [2480; 200; 5280; 400]); ("x", [2880; 2600; 2000])].
Proof. vm_compute. reflexivity. Qed.
(** A delimiter 30 above and 6 below the baseline. *)
Definition reach (r : lres (@Box.tnode exact * unit)) : option (Z * Z) :=
  match r with LOk (t, _) => Some (cents (above t), cents (beneath t)) | _ => None end.
Example C63_case :
  reach (auto_height_char squares "(" (xofZ 30) (xofZ 6) (mk_state (mk_font "default" "rm" (xofZ 20)) (xofZ 60)) f0 tt) = Some (3000, 600).
Proof. vm_compute. reflexivity. Qed.
Print Assumptions C60_fraction. Print Assumptions C62_sqrt_exact. Print Assumptions C63_auto_height_exact.
