(** When typesetting writes nothing to the log: the argument, for any arithmetic with a
    few laws. *)
From Coq Require Import ZArith String Ascii List Bool Lia.
From Verif Require Import Utf8 Token Ast SetTable Parser Symbols Arith OrderLaws Box Warn Mtex MtexFacts LogMtex PropCost LogSpec.
Import ListNotations.
Local Open Scope string_scope.
Local Open Scope list_scope.
Local Open Scope Z_scope.

Section Laws.
Variable A : arith.
Notation F := (Arith.F A).
Local Open Scope F.
Definition le (x y : F) : Prop := fltb A y x = false.
(** [P k x]: the number [x] is finite and its magnitude is at most [k] units. *)
Record bound_laws (P : Z -> F -> Prop) (LIM : Z) : Prop := mk_bound_laws {
  b_num : forall a x, P a x -> num x;
  b_fin : forall a x, P a x -> finf A x = false;
  b_pos : forall a x, P a x -> (0 <= a)%Z;
  b_mono : forall a b x, P a x -> (a <= b)%Z -> P b x;
  b_0 : P 0 f0;
  b_zero : forall a x, P a x -> le x f0 -> le f0 x -> P 0 x;
  b_add : forall a b x y, P a x -> P b y -> (a + b <= LIM)%Z -> P (a + b)%Z (x + y);
  b_sub : forall a b x y, P a x -> P b y -> (a + b <= LIM)%Z -> P (a + b)%Z (x - y);
  b_opp : forall a x, P a x -> P a (- x);
  b_shrink : forall a x, P a x -> (a <= LIM)%Z -> P a (x * shrink_factor);
  b_fifth : forall a x, P a x -> (a <= LIM)%Z -> P a (x * frat 1 5);
  b_half : forall a x, P a x -> (a <= LIM)%Z -> P a (frat 1 2 * x);
  b_two : forall a x, P a x -> (2 * a <= LIM)%Z -> P (2 * a)%Z (fofZ A 2 * x) /\ P (2 * a)%Z (x * fofZ A 2) /\ P a (x / fofZ A 2);
  b_three : forall a x, P a x -> (3 * a <= LIM)%Z -> P (3 * a)%Z (fofZ A 3 * x);
  b_space : forall a x n d, P a x -> (2 * a <= LIM)%Z -> In (n, d) (map snd space_width) -> P (2 * a)%Z (x * frat n d);
  b_cancel : forall a x, P a x -> (a <= LIM)%Z -> feqb A (f0 + x - x) f0 = true;
  b_shift : forall a e b c x d y z, P a x -> P e d -> P b y -> P c z -> (a + e + b + c <= LIM)%Z ->
    P (a + e + c + 2)%Z (f0 + (x + (d + y)) - (y - z));
  b_drop : forall a b k h d c, P a h -> P b d -> P k c -> le f0 c -> (a + b + k <= LIM)%Z ->
    P (a + b + 2)%Z (fmax A f0 (h - (c - d)));
  b_le_add : forall a b c d x y z w, P a x -> P b y -> P c z -> P d w -> (a + c <= LIM)%Z -> (b + d <= LIM)%Z ->
    le x y -> le z w -> le (x + z) (y + w);
  b_ge : forall a b x y, P a x -> P b y -> (a <= LIM)%Z -> (b <= LIM)%Z -> le x y ->
    le f0 (y - x) /\ (feqb A (y - x) f0 = true \/ fltb A f0 (y - x) = true);
  b_comm : forall a b x y, P a x -> P b y -> x + y = y + x;
  b_idl : forall a x, P a x -> (a <= LIM)%Z -> le (f0 + x) x /\ le x (f0 + x);
  b_half_le : forall a x, P a x -> (a <= LIM)%Z -> le f0 x -> le (frat 1 2 * x) x /\ le f0 (frat 1 2 * x);
  b_three_le : forall a x, P a x -> (3 * a <= LIM)%Z -> le f0 x -> le (x + x) (fofZ A 3 * x);
  b_neg1 : fltb A (fopp A f1) f0 = true;
  b_ss : feqb A (f0 + f1 + f1) f0 = false /\ feqb A (f0 + fopp A f1 + fopp A f1) f0 = false /\ feqb A (f0 + f1) f0 = false;
  b_inf : finf A (fpinf A) = true /\ forall a x, P a x -> fltb A (fpinf A) x = false }.
End Laws.
Arguments le {A}.

(** Started in a state of the backend that satisfies [Inv], a run writes nothing, and if it
    returns, the state still does and the result satisfies [Q]. *)
Definition silent {S} (Inv : S -> Prop) {X} (w : W S X) (Q : X -> Prop) : Prop :=
  forall s, Inv s -> snd (w s) = [] /\ forall x s', fst (w s) = LOk (x, s') -> Inv s' /\ Q x.
Definition gives {S} (Inv : S -> Prop) {X} (m : M S X) (Q : X -> Prop) : Prop :=
  forall s x s', Inv s -> m s = LOk (x, s') -> Inv s' /\ Q x.
Section Inv.
Context {S : Type} {Inv : S -> Prop}.
Notation silent := (silent Inv).
Notation gives := (gives Inv).
Lemma silent_ret {X} (x : X) (Q : X -> Prop) : Q x -> silent (wret x) Q.
Proof. intros H s I. split; [reflexivity|]. cbn. intros ? ? [= <- <-]. now split. Qed.
Lemma silent_quiet {X} (m : M S X) (Q : X -> Prop) : gives m Q -> silent (quiet m) Q.
Proof. intros H s I. split; [reflexivity|]. cbn. intros x s' E. exact (H s x s' I E). Qed.
Lemma silent_bind {X Y} (w : W S X) (f : X -> W S Y) (Q : X -> Prop) R :
  silent w Q -> (forall x, Q x -> silent (f x) R) -> silent (wbind w f) R.
Proof.
  intros H K s I. unfold wbind. destruct (H s I) as [H1 H2]. destruct (w s) as [[[x s']|e] l]; cbn [fst snd] in *; subst l.
  - destruct (H2 _ _ eq_refl) as [I' Q']. destruct (K x Q' s' I') as [K1 K2]. now rewrite K1.
  - split; [reflexivity|discriminate].
Qed.
Lemma silent_weak {X} (w : W S X) (Q R : X -> Prop) : silent w Q -> (forall x, Q x -> R x) -> silent w R.
Proof. intros H K s I. destruct (H s I) as [H1 H2]. split; [exact H1|]. intros x s' E. destruct (H2 _ _ E). split; auto. Qed.
Lemma silent_panic {X} e (Q : X -> Prop) : silent (quiet (mpanic e)) Q.
Proof. apply silent_quiet. intros s x s' I E. discriminate. Qed.
Lemma gives_weak {X} (m : M S X) (Q R : X -> Prop) : gives m Q -> (forall x, Q x -> R x) -> gives m R.
Proof. intros H K s x s' I E. destruct (H _ _ _ I E). split; auto. Qed.
Lemma gives_bind {X Y} (m : M S X) (f : X -> M S Y) (Q : X -> Prop) R :
  gives m Q -> (forall x, Q x -> gives (f x) R) -> gives (mbind m f) R.
Proof.
  intros H K s y s' I. unfold mbind. destruct (m s) as [[x s1]|] eqn:E; [|discriminate]. intros E2. destruct (H _ _ _ I E) as [I' Q'].
  exact (K x Q' _ _ _ I' E2).
Qed.
Lemma gives_ret {X} (x : X) (Q : X -> Prop) : Q x -> gives (mret x) Q.
Proof. intros H s y s' I [= <- <-]. now split. Qed.
Lemma gives_panic {X} e (Q : X -> Prop) : gives (mpanic e) Q.
Proof. intros s y s' I E. discriminate. Qed.
Lemma gives_lift {X} (r : lres X) (Q : X -> Prop) : (forall x, r = LOk x -> Q x) -> gives (mlift r) Q.
Proof. intros H. destruct r as [x|e]; [apply gives_ret, H; reflexivity|apply gives_panic]. Qed.
(** A run that only computes. *)
Lemma silent_say {X} (w : list string) (x : X) (Q : X -> Prop) : w = [] -> Q x -> silent (wbind (say w) (fun _ => wret x)) Q.
Proof. intros -> H s I. split; [reflexivity|]. cbn. intros y s' [= <- <-]. now split. Qed.
Lemma silent_lift {X} (w : list string) (r : lres X) (Q : X -> Prop) : w = [] -> (forall x, r = LOk x -> Q x) -> silent (wbind (say w) (fun _ => quiet (mlift r))) Q.
Proof. intros -> H. apply (silent_bind _ _ (fun _ => True)); [now intros s I; split; [reflexivity|]; intros y s' [= <- <-]|]. intros _ _. now apply silent_quiet, gives_lift. Qed.
End Inv.
(** The methods of a backend keep an invariant of its state. *)
Record keeps {A : arith} {S : Type} (Inv : S -> Prop) (be : @backend A S) : Prop := mk_keeps {
  keep_metrics : forall sym f d m, gives Inv (be_metrics be sym f d m) (fun _ => True);
  keep_kern : forall f a g b d, gives Inv (be_kern be f a g b d) (fun _ => True);
  keep_line : forall f d, gives Inv (be_underline be f d) (fun _ => True);
  keep_xheight : forall f d, gives Inv (be_xheight be f d) (fun _ => True) }.

Section Quiet.
Context {A : arith} {S : Type}.
Notation F := (Arith.F A).
Notation tnode := (@Box.tnode A).
Notation state := (@Box.state A).
Notation visitor := (@Mtex.visitor A).
Local Open Scope F.
Variable P : Z -> F -> Prop.
Variable LIM : Z.
Hypothesis L : bound_laws A P LIM.
Hypothesis O : order_laws A.
Hypothesis LIM_big : 1000 <= LIM.
Variable range : Symbols.gset -> list string.
Variable be : @backend A S.
Variable Inv : S -> Prop.
Hypothesis Hinv : keeps Inv be.
Notation silent := (silent Inv).
Notation gives := (gives Inv).
Variable parse_float : string -> option F.
Variable expr : string.
Variables size dpi : F.
(** The fonts asked for: those of the size of the expression, of any type, and those
    that AutoHeightChar makes of them. *)
Definition at_size (f : @Box.font A) : Prop := f_name f = "default" /\ f_size f = size.
Variable good : @Box.font A -> Prop.
Variable resizes : Prop.
Hypothesis Hat : forall f, f_size f = size -> good f.
Hypothesis Hres : resizes -> forall k f, at_size f -> good (scale_font k f).
Hypothesis Hmet : forall sym f m s x s', good f -> Inv s -> be_metrics be sym f dpi m s = LOk (x, s') ->
  P 1 (m_adv x) /\ P 1 (m_width x) /\ P 1 (m_iceberg x) /\ P 1 (m_height x) /\ P 1 (m_ymax x) /\ P 1 (m_ymin x) /\
  (forall v y, parse_float v = Some y -> P 1 (m_adv x * y)).
Hypothesis Hkern : forall f a g b s x s', good f -> good g -> Inv s -> be_kern be f a g b dpi s = LOk (x, s') -> P 1 x.
Variable line : @Box.font A -> F -> F.
Hypothesis Hline0 : forall f s x s', at_size f -> Inv s -> be_underline be f dpi s = LOk (x, s') -> x = line f dpi /\ P 1 x /\ le f0 x.
Hypothesis Hsize : P 1 (size * dpi / fofZ A 1200) /\ le f0 (size * dpi / fofZ A 1200).

Definition at_st (st : state) : Prop := at_size (st_font st) /\ st_dpi st = dpi.
Lemma met_P sym f m : good f -> gives (be_metrics be sym f dpi m) (fun x =>
  P 1 (m_adv x) /\ P 1 (m_width x) /\ P 1 (m_iceberg x) /\ P 1 (m_height x) /\ P 1 (m_ymax x) /\ P 1 (m_ymin x) /\
  (forall v y, parse_float v = Some y -> P 1 (m_adv x * y))).
Proof. intros G s x s' I E. split; [exact (proj1 (keep_metrics _ _ Hinv _ _ _ _ _ _ _ I E))|]. eapply Hmet; eauto. Qed.
Lemma Hline st : at_st st -> gives (be_underline be (st_font st) (st_dpi st)) (fun x => x = line (st_font st) dpi /\ P 1 x /\ le f0 x).
Proof. intros [G E0] s x s' I E. split; [exact (proj1 (keep_line _ _ Hinv _ _ _ _ _ I E))|]. rewrite E0 in E. eapply Hline0; eauto. Qed.
Lemma Hline1 st : at_st st -> gives (be_underline be (st_font st) (st_dpi st)) (P 1).
Proof. intros ok. eapply gives_weak; [now apply Hline|]. now intros x (_ & ? & _). Qed.
Notation W := (W S).
Let mono := b_mono _ _ _ L.
Let num_of := b_num _ _ _ L.

Lemma le_trans a b c x y z : P a x -> P b y -> P c z -> le x y -> le y z -> le x z.
Proof. intros X Y Z' H K. unfold le in H, K |- *. apply (ol_trans A O x y z); eauto. Qed.
Lemma le_refl a x : P a x -> le x x.
Proof. intros X. apply (ol_irrefl A O). eauto. Qed.
Lemma max_P a b x y : P a x -> P b y -> P (Z.max a b) (fmax A x y).
Proof.
  intros X Y. destruct (ol_max_in A O x y (num_of _ _ X) (num_of _ _ Y)) as [-> | ->]; (eapply mono; [eassumption|lia]).
Qed.
Lemma max_ge a b x y : P a x -> P b y -> le f0 x -> le f0 (fmax A x y).
Proof.
  intros X Y H. eapply le_trans; [apply (b_0 _ _ _ L)|exact X|apply (max_P _ _ _ _ X Y)|exact H|].
  unfold le. apply (ol_max_l A O); eauto.
Qed.
Lemma max_bound i j b a x : le f0 a -> P i a -> P j x -> P b (fmax A f0 x) -> P (Z.max i b) (fmax A a x).
Proof.
  intros H Ha X B. pose proof (b_0 _ _ _ L) as P0. pose proof (b_pos _ _ _ L _ _ B) as B0.
  destruct (ol_max_in A O a x (num_of _ _ Ha) (num_of _ _ X)) as [E|E]; [rewrite E; eapply mono; [exact Ha|lia]|].
  assert (G : le f0 x) by (rewrite <- E; eapply max_ge; eauto).
  destruct (ol_max_in A O f0 x (num_of _ _ P0) (num_of _ _ X)) as [E2|E2].
  - assert (Q : P 0 x).
    { eapply (b_zero _ _ _ L); [exact X| |exact G]. pose proof (ol_max_r A O f0 x (num_of _ _ P0) (num_of _ _ X)) as K. now rewrite E2 in K. }
    rewrite E. eapply mono; [exact Q|lia].
  - rewrite E, <- E2. eapply mono; [exact B|lia].
Qed.
Lemma max_le a x : P a x -> le f0 x -> le (fmax A f0 x) x.
Proof.
  intros X H. destruct (ol_max_in A O f0 x (ol_0 A O) (num_of _ _ X)) as [-> | ->]; [exact H|eapply le_refl; eauto].
Qed.

Definition above (t : tnode) : F := match t with TL _ b s _ _ => b_height b - s | _ => t_height t end.
Definition beneath (t : tnode) : F := match t with TL _ b s _ _ => b_depth b + s | _ => t_depth t end.
Definition item (k : Z) (t : tnode) : Prop :=
  P k (t_width t) /\ (exists i, P i (t_height t)) /\ (exists i, P i (t_depth t)) /\
  (exists i, P i (above t)) /\ (exists i, P i (beneath t)) /\
  (exists b c, P b (fmax A f0 (above t)) /\ P c (fmax A f0 (beneath t)) /\ (b + c <= k)%Z) /\
  match t with TChar c => P 1 (m_adv (c_metrics c)) /\ P 1 (c_width c) /\ good (c_font c) /\ c_dpi c = dpi | TAccent _ | TGlue _ => False | _ => True end.
Definition fresh (k : Z) (t : tnode) : Prop :=
  exists b gs l, t = TL KHList b f0 gs l /\ P k (b_width b) /\
    (exists x y, P x (b_height b) /\ P y (b_depth b) /\ (x + y <= k)%Z) /\ le f0 (b_height b) /\ le f0 (b_depth b).
Lemma item_pos k t : item k t -> (0 <= k)%Z.
Proof. intros (H & _). eapply (b_pos _ _ _ L); eauto. Qed.
Lemma item_mono k k' t : item k t -> (k <= k')%Z -> item k' t.
Proof.
  intros (A1 & A2 & A3 & A4 & A5 & (b & c & B1 & B2 & B3) & A7) H. repeat split; try assumption; try (eapply mono; eauto).
  exists b, c. repeat split; auto; lia.
Qed.
Lemma fresh_item k t : fresh k t -> (k <= LIM)%Z -> item k t.
Proof.
  intros (b & gs & l & -> & Wd & (x & y & X & Y & Le) & _ & _) K. pose proof (b_0 _ _ _ L) as P0.
  pose proof (b_pos _ _ _ L _ _ X) as X0. pose proof (b_pos _ _ _ L _ _ Y) as Y0.
  assert (U : P x (b_height b - f0)) by (eapply mono; [apply (b_sub _ _ _ L _ _ _ _ X P0); lia|lia]).
  assert (V : P y (b_depth b + f0)) by (eapply mono; [apply (b_add _ _ _ L _ _ _ _ Y P0); lia|lia]).
  unfold item. cbn [t_width t_height t_depth above beneath]. repeat split; eauto.
  exists x, y. split; [|split; [|exact Le]].
  - eapply mono; [apply (max_P _ _ _ _ P0 U)|lia].
  - eapply mono; [apply (max_P _ _ _ _ P0 V)|lia].
Qed.

(** Sums over a list. *)
Definition items (K : Z) (l : list tnode) : Prop := exists ks, Forall2 item ks l /\ (total (fun k => k) ks <= K)%Z.
Definition pushed (K : Z) (l : list tnode) : Prop := exists ks, Forall2 item ks l /\ (total (fun k => k + 3) ks <= K)%Z.
Definition hd_ok (K : Z) (d : @dims A) : Prop :=
  P K (d_w d) /\ (exists b c, P b (d_h d) /\ P c (d_d d) /\ (b + c <= K)%Z) /\ le f0 (d_h d) /\ le f0 (d_d d).
Lemma hd_step K k d t : hd_ok K d -> item k t -> (K + k <= LIM)%Z -> hd_ok (K + k) (hpack_dims t d).
Proof.
  intros (Hw & (b & c & Hb & Hc & Hs) & G1 & G2) (I1 & (i2 & I2) & (i3 & I3) & (i4 & I4) & (i5 & I5) & (b' & c' & B1 & B2 & B3) & I7) Lm.
  pose proof (b_pos _ _ _ L _ _ Hb). pose proof (b_pos _ _ _ L _ _ Hc).
  pose proof (b_pos _ _ _ L _ _ B1). pose proof (b_pos _ _ _ L _ _ B2). pose proof (b_pos _ _ _ L _ _ I1). pose proof (b_pos _ _ _ L _ _ Hw).
  pose proof (b_fin _ _ _ L _ _ I2) as N2. pose proof (b_fin _ _ _ L _ _ I3) as N3.
  assert (Wd : P (K + k) (d_w d + t_width t)) by (apply (b_add _ _ _ L); auto).
  assert (Hh : P (Z.max b b') (fmax A (d_h d) (above t))) by (eapply max_bound; eauto).
  assert (Hd : P (Z.max c c') (fmax A (d_d d) (beneath t))) by (eapply max_bound; eauto).
  assert (Gh : le f0 (fmax A (d_h d) (above t))) by (eapply max_ge; eauto).
  assert (Gd : le f0 (fmax A (d_d d) (beneath t))) by (eapply max_ge; eauto).
  assert (E : exists b c, P b (fmax A (d_h d) (above t)) /\ P c (fmax A (d_d d) (beneath t)) /\ (b + c <= K + k)%Z) by (exists (Z.max b b'), (Z.max c c'); repeat split; auto; lia).
  destruct t as [bx|bx|ch|ch|g|sz w|kd bx sh gs l]; cbn [hpack_dims t_height t_depth t_width above beneath] in *; try contradiction; try rewrite N2, N3; cbn [orb].
  - split; [exact Wd|]. split; [exact E|]. now split.
  - split; [exact Wd|]. split; [exact E|]. now split.
  - split; [exact Wd|]. split; [exact E|]. now split.
  - split; [exact Wd|]. split; [|now split]. exists b, c. cbn [d_h d_d]. repeat split; auto. lia.
  - split; [exact Wd|]. split; [exact E|]. now split.
Qed.
Lemma hd_fold l : forall K k d, hd_ok K d -> items k l -> (K + k <= LIM)%Z -> hd_ok (K + k) (fold_left (fun d x => hpack_dims x d) l d).
Proof.
  intros K k d H (ks & F2 & T). revert K k d H T. induction F2 as [|i t ks l I F2 IH]; intros K k d H T Lm; cbn [fold_left].
  - destruct H as (H1 & (b & c & Hb & Hc & Hs) & G). cbn in T. split; [eapply mono; [exact H1|lia]|]. split; [exists b, c; repeat split; auto; lia|exact G].
  - rewrite total_cons in T. pose proof (item_pos _ _ I).
    assert (T0 : (0 <= total (fun k => k) ks)%Z) by (clear -F2 L; induction F2 as [|i t ks l I F2 IH]; [reflexivity|rewrite total_cons; pose proof (item_pos _ _ I); lia]).
    replace (K + k)%Z with (K + i + (k - i))%Z by lia. apply IH; [|lia|lia]. apply hd_step; auto; lia.
Qed.
Lemma hd_0 : hd_ok 0 dims0.
Proof.
  pose proof (b_0 _ _ _ L) as P0. split; [exact P0|]. split; [exists 0%Z, 0%Z; cbn; repeat split; auto; lia|].
  split; apply (le_refl 0%Z); exact P0.
Qed.
Lemma pack_silent typ x d (l : list tnode) : feqb A x f0 = true -> pack_log typ x d l = [].
Proof. intros E. unfold pack_log. now rewrite E. Qed.
Lemma w_hpack_natural K l : items K l -> (K <= LIM)%Z ->
  silent (w_hpack f0 true (list_of KHList l)) (fresh K).
Proof.
  intros I Lm. pose proof (hd_fold l 0 K dims0 hd_0 I ltac:(lia)) as (Wd & (b & c & B & C & Le) & G1 & G2). cbn [Z.add] in *.
  pose proof (b_0 _ _ _ L) as P0.
  assert (Z0 : feqb A (f0 + d_w (fold_left (fun d x => hpack_dims x d) l dims0) - d_w (fold_left (fun d x => hpack_dims x d) l dims0)) f0 = true) by (eapply (b_cancel _ _ _ L); [exact Wd|lia]).
  apply silent_say.
  - unfold hpack_log, list_of. cbv zeta. now apply pack_silent.
  - unfold hpack, list_of. cbv zeta.
    eexists _, _, _. split; [reflexivity|]. cbn [b_width b_height b_depth]. split; [|split; [|split; [exact G1|exact G2]]].
    + eapply mono; [apply (b_add _ _ _ L _ _ _ _ P0 Wd)|]; lia.
    + exists b, c. repeat split; auto.
Qed.

(** Kerning. *)
Lemma kern_item x : P 3 x -> item 3 (new_kern x).
Proof.
  intros H. pose proof (b_0 _ _ _ L) as P0. unfold item, new_kern. cbn [t_width t_height t_depth above beneath].
  assert (M0 : P 0 (fmax A f0 f0)) by (eapply mono; [apply (max_P _ _ _ _ P0 P0)|lia]).
  repeat split; eauto. exists 0%Z, 0%Z. repeat split; auto. lia.
Qed.
Lemma kerning_P k t n : item k t -> match n with Some x => exists k', item k' x | None => True end -> gives (kerning be t n) (P 3).
Proof.
  intros I N. destruct I as (_ & _ & _ & _ & _ & _ & I). pose proof (b_0 _ _ _ L) as P0.
  destruct t as [bx|bx|ch|ch|g|sz w|kd bx sh gs l]; cbn [kerning] in *; try contradiction; try (apply gives_ret; eapply mono; [exact P0|lia]).
  destruct I as (I1 & I2 & I3 & I4). apply (gives_bind _ _ (P 1)).
  - destruct n as [[]|]; try (apply gives_ret; eapply mono; [exact P0|lia]); destruct N as (k' & _ & _ & _ & _ & _ & _ & N); try contradiction.
    intros s x s' IV E. destruct N as (_ & _ & N & _). split; [exact (proj1 (keep_kern _ _ Hinv _ _ _ _ _ _ _ _ IV E))|].
    rewrite I4 in E. eapply Hkern; [exact I3|exact N|exact IV|exact E].
  - intros y Hy. apply gives_ret. pose proof (b_sub _ _ _ L _ _ _ _ I1 I2 ltac:(lia)) as D. apply (b_add _ _ _ L _ _ _ _ D Hy). lia.
Qed.
Lemma kern_list_items l : forall K, pushed K l -> gives (kern_list be l) (items K).
Proof.
  induction l as [|t l IH]; intros K (ks & F2 & T); inversion F2 as [|i ? ks' ? I F2']; subst; cbn [kern_list].
  - apply gives_ret. exists []. split; [constructor|exact T].
  - rewrite total_cons in T. apply (gives_bind _ _ (P 3)); [eapply kerning_P; [exact I|]; inversion F2'; subst; cbn [hd_error]; eauto|]. intros x X.
    apply (gives_bind _ _ (items (K - (i + 3)))); [apply IH; exists ks'; split; [exact F2'|lia]|].
    intros r (rs & R & T2). apply gives_ret. destruct (negb _).
    + exists (i :: 3%Z :: rs). split; [constructor; [exact I|constructor; [now apply kern_item|exact R]]|]. rewrite !total_cons. lia.
    + exists (i :: rs). split; [constructor; [exact I|exact R]|]. rewrite total_cons. lia.
Qed.
Lemma w_hlist_P K l : pushed K l -> (K <= LIM)%Z -> silent (w_hlist_of be l true) (fresh K).
Proof.
  intros H Lm. unfold w_hlist_of. apply (silent_bind _ _ (items K)); [apply silent_quiet, kern_list_items, H|].
  intros l' I. now apply w_hpack_natural.
Qed.
Lemma pushed_nil : pushed 0 [].
Proof. exists []. split; [constructor|reflexivity]. Qed.
Lemma pushed_cons k K t l : item k t -> pushed K l -> pushed (k + 3 + K) (t :: l).
Proof. intros I (ks & F2 & T). exists (k :: ks). split; [now constructor|]. rewrite total_cons. lia. Qed.
Lemma pushed_app K K' l l' : pushed K l -> pushed K' l' -> pushed (K + K') (l ++ l').
Proof. intros (ks & F2 & T) (ks' & F2' & T'). exists (ks ++ ks'). split; [now apply Forall2_app|]. rewrite total_app. lia. Qed.
Lemma pushed_mono K K' l : pushed K l -> (K <= K')%Z -> pushed K' l.
Proof. intros (ks & F2 & T) H. exists ks. split; [exact F2|lia]. Qed.

(** Characters and spaces. *)
Lemma new_char_P c st m : good (st_font st) -> st_dpi st = dpi -> gives (new_char be c st m) (fun ch => item 3 (TChar ch) /\ P 1 (c_width ch) /\ P 1 (c_height ch) /\ P 2 (c_depth ch)).
Proof.
  intros G0 D0. apply (gives_bind _ _ (fun x => P 1 (m_adv x) /\ P 1 (m_width x) /\ P 1 (m_iceberg x) /\ P 1 (m_height x))).
  { rewrite D0. eapply gives_weak; [now apply met_P|]. intros x (? & ? & ? & ? & _). auto. }
  intros x (A1 & A2 & A3 & A4). apply gives_ret. pose proof (b_0 _ _ _ L) as P0.
  assert (Wd : P 1 (if String.eqb c " " then m_adv x else m_width x)) by now destruct (String.eqb c " ").
  assert (D : P 2 (- (m_iceberg x - m_height x))) by (apply (b_opp _ _ _ L), (b_sub _ _ _ L _ _ _ _ A3 A4); lia).
  split; [|cbn; auto]. unfold item. cbn [t_width t_height t_depth above beneath c_width c_height c_depth c_metrics].
  split; [eapply mono; [exact Wd|lia]|]. repeat split; eauto. exists 1%Z, 2%Z. repeat split; try lia.
  - eapply mono; [apply (max_P _ _ _ _ P0 A3)|lia].
  - eapply mono; [apply (max_P _ _ _ _ P0 D)|lia].
Qed.
Definition kern2 (t : tnode) : Prop := exists x, t = new_kern x /\ P 2 x.
Lemma kern2_item t : kern2 t -> item 3 t.
Proof. intros (x & -> & H). apply kern_item. eapply mono; [exact H|lia]. Qed.
Lemma make_space_P st c : at_st st -> (forall x, P 1 x -> P 2 (x * c)) -> gives (make_space be st c) kern2.
Proof.
  intros (G0 & D0) H. apply (gives_bind _ _ (fun m => P 1 (m_adv m))).
  { rewrite D0. eapply gives_weak; [apply met_P, Hat; exact (proj2 G0)|]. now intros x (? & _). }
  intros m M1. apply gives_ret. exists (m_adv m * c). split; [reflexivity|auto].
Qed.
Lemma fifth_P st : at_st st -> gives (make_space be st (frat 1 5)) kern2.
Proof. intros ok. apply make_space_P; [exact ok|]. intros x X. eapply mono; [apply (b_fifth _ _ _ L _ _ X); lia|lia]. Qed.
Lemma assoc_In {X} k (l : list (string * X)) v : assoc k l = Some v -> In v (map snd l).
Proof. induction l as [|[k' v'] l IH]; cbn; [discriminate|]. destruct (String.eqb k k'); [intros [= ->]; now left|auto]. Qed.
Lemma handle_space_P name st : at_st st -> gives (handle_space be name st) kern2.
Proof.
  intros ok. unfold handle_space. destruct (assoc name space_width) as [[n d]|] eqn:E; [|apply gives_panic].
  apply make_space_P; [exact ok|]. intros x X. apply (b_space _ _ _ L 1); [exact X|lia|]. apply assoc_In in E. exact E.
Qed.
Lemma custom_P args st : at_st st -> gives (handle_custom_space be parse_float args st) kern2.
Proof.
  intros ok. unfold handle_custom_space. destruct args as [|[] args]; try apply gives_panic.
  destruct l as [|[] l]; try apply gives_panic.
  match goal with |- context [parse_float ?a] => destruct (parse_float a) as [v|] eqn:E end; [|apply gives_panic].
  apply (gives_bind _ _ (fun m => P 1 (m_adv m * v))).
  { destruct ok as [G0 D0]. rewrite D0. eapply gives_weak; [apply met_P, Hat; exact (proj2 G0)|]. intros x (_ & _ & _ & _ & _ & _ & K). exact (K _ _ E). }
  intros m M1. apply gives_ret. exists (m_adv m * v). split; [reflexivity|eapply mono; [exact M1|lia]].
Qed.

(** Bounds for width, height and depth apart. *)
Definition item3 (w b c : Z) (t : tnode) : Prop :=
  P w (t_width t) /\ (exists i, P i (t_height t)) /\ (exists i, P i (t_depth t)) /\
  (exists i, P i (above t)) /\ (exists i, P i (beneath t)) /\
  P b (fmax A f0 (above t)) /\ P c (fmax A f0 (beneath t)) /\
  match t with TChar c => P 1 (m_adv (c_metrics c)) /\ P 1 (c_width c) /\ good (c_font c) /\ c_dpi c = dpi | TAccent _ | TGlue _ => False | _ => True end.
Definition fresh3 (w b c : Z) (t : tnode) : Prop :=
  exists bx gs l, t = TL KHList bx f0 gs l /\ P w (b_width bx) /\ P b (b_height bx) /\ P c (b_depth bx) /\ le f0 (b_height bx) /\ le f0 (b_depth bx).
Lemma fresh_fresh3 k t : fresh k t -> exists b c, fresh3 k b c t /\ (b + c <= k)%Z.
Proof. intros (b & gs & l & -> & Wd & (x & y & X & Y & Le) & G1 & G2). exists x, y. split; [|exact Le]. exists b, gs, l. auto 10. Qed.
Lemma fresh3_fresh w b c k t : fresh3 w b c t -> (w <= k)%Z -> (b + c <= k)%Z -> fresh k t.
Proof.
  intros (bx & gs & l & -> & Wd & B & C & G1 & G2) H1 H2. exists bx, gs, l. split; [reflexivity|].
  split; [eapply mono; eauto|]. split; [exists b, c; auto|auto].
Qed.
Lemma fresh3_item w b c t : fresh3 w b c t -> (w <= LIM)%Z -> (b <= LIM)%Z -> (c <= LIM)%Z -> item3 w b c t.
Proof.
  intros (bx & gs & l & -> & Wd & X & Y & _ & _) K1 K2 K3. pose proof (b_0 _ _ _ L) as P0.
  pose proof (b_pos _ _ _ L _ _ X) as X0. pose proof (b_pos _ _ _ L _ _ Y) as Y0.
  assert (U : P b (b_height bx - f0)) by (eapply mono; [apply (b_sub _ _ _ L _ _ _ _ X P0); lia|lia]).
  assert (V : P c (b_depth bx + f0)) by (eapply mono; [apply (b_add _ _ _ L _ _ _ _ Y P0); lia|lia]).
  unfold item3. cbn [t_width t_height t_depth above beneath]. repeat split; eauto.
  - eapply mono; [apply (max_P _ _ _ _ P0 U)|lia].
  - eapply mono; [apply (max_P _ _ _ _ P0 V)|lia].
Qed.
Lemma item3_mono w b c w' b' c' t : item3 w b c t -> (w <= w')%Z -> (b <= b')%Z -> (c <= c')%Z -> item3 w' b' c' t.
Proof. intros (A1 & A2 & A3 & A4 & A5 & A6 & A7 & A8) H1 H2 H3. repeat split; try assumption; eapply mono; eauto. Qed.
Definition hd3 (w b c : Z) (d : @dims A) : Prop :=
  P w (d_w d) /\ P b (d_h d) /\ P c (d_d d) /\ le f0 (d_h d) /\ le f0 (d_d d).
Lemma hd3_step K k b c d t : hd3 K b c d -> item3 k b c t -> (K + k <= LIM)%Z -> hd3 (K + k) b c (hpack_dims t d).
Proof.
  intros (Hw & Hb & Hc & G1 & G2) (I1 & (i2 & I2) & (i3 & I3) & (i4 & I4) & (i5 & I5) & B1 & B2 & I7) Lm.
  pose proof (b_fin _ _ _ L _ _ I2) as N2. pose proof (b_fin _ _ _ L _ _ I3) as N3.
  assert (Wd : P (K + k) (d_w d + t_width t)) by (apply (b_add _ _ _ L); auto).
  assert (Hh : P b (fmax A (d_h d) (above t))) by (eapply mono; [eapply max_bound; eauto|lia]).
  assert (Hd : P c (fmax A (d_d d) (beneath t))) by (eapply mono; [eapply max_bound; eauto|lia]).
  assert (Gh : le f0 (fmax A (d_h d) (above t))) by (eapply max_ge; eauto).
  assert (Gd : le f0 (fmax A (d_d d) (beneath t))) by (eapply max_ge; eauto).
  destruct t as [bx|bx|ch|ch|g|sz w|kd bx sh gs l]; cbn [hpack_dims t_height t_depth t_width above beneath] in *; try contradiction; try rewrite N2, N3; cbn [orb];
    (split; [exact Wd|]); (split; [assumption|]); (split; [assumption|]); now split.
Qed.
Definition items3 (K b c : Z) (l : list tnode) : Prop := exists ks, Forall2 (fun k t => item3 k b c t) ks l /\ (total (fun k => k) ks <= K)%Z.
Definition pushed3 (K b c : Z) (l : list tnode) : Prop := exists ks, Forall2 (fun k t => item3 k b c t) ks l /\ (total (fun k => k + 3) ks <= K)%Z.
Lemma item3_pos w b c t : item3 w b c t -> (0 <= w)%Z.
Proof. intros (H & _). eapply (b_pos _ _ _ L); eauto. Qed.
Lemma hd3_fold l b c : forall K k d, hd3 K b c d -> items3 k b c l -> (K + k <= LIM)%Z -> hd3 (K + k) b c (fold_left (fun d x => hpack_dims x d) l d).
Proof.
  intros K k d H (ks & F2 & T). revert K k d H T. induction F2 as [|i t ks l I F2 IH]; intros K k d H T Lm; cbn [fold_left].
  - destruct H as (H1 & Hr). cbn in T. split; [eapply mono; [exact H1|lia]|exact Hr].
  - rewrite total_cons in T. pose proof (item3_pos _ _ _ _ I).
    assert (T0 : (0 <= total (fun k => k) ks)%Z) by (clear -F2 L; induction F2 as [|i t ks l I F2 IH]; [reflexivity|rewrite total_cons; pose proof (item3_pos _ _ _ _ I); lia]).
    replace (K + k)%Z with (K + i + (k - i))%Z by lia. apply IH; [|lia|lia]. apply hd3_step; auto; lia.
Qed.
Lemma hd3_0 b c : (0 <= b)%Z -> (0 <= c)%Z -> hd3 0 b c dims0.
Proof.
  intros B C. pose proof (b_0 _ _ _ L) as P0. assert (R : le (A:=A) f0 f0) by apply (le_refl 0%Z), P0.
  split; [exact P0|]. split; [eapply mono; [exact P0|lia]|]. split; [eapply mono; [exact P0|lia]|]. now split.
Qed.
Lemma w_hpack3 K b c l : items3 K b c l -> (K <= LIM)%Z -> (0 <= b)%Z -> (0 <= c)%Z ->
  silent (w_hpack f0 true (list_of KHList l)) (fresh3 K b c).
Proof.
  intros I Lm B0 C0. pose proof (hd3_fold l b c 0 K dims0 (hd3_0 _ _ B0 C0) I ltac:(lia)) as (Wd & B & C & G1 & G2). cbn [Z.add] in *.
  pose proof (b_0 _ _ _ L) as P0.
  assert (Z0 : feqb A (f0 + d_w (fold_left (fun d x => hpack_dims x d) l dims0) - d_w (fold_left (fun d x => hpack_dims x d) l dims0)) f0 = true) by (eapply (b_cancel _ _ _ L); [exact Wd|lia]).
  apply silent_say.
  - unfold hpack_log, list_of. cbv zeta. now apply pack_silent.
  - unfold hpack, list_of. cbv zeta.
    eexists _, _, _. split; [reflexivity|]. cbn [b_width b_height b_depth]. split; [|auto].
    eapply mono; [apply (b_add _ _ _ L _ _ _ _ P0 Wd)|]; lia.
Qed.
Lemma kern_item3 k x b c : P k x -> (0 <= b)%Z -> (0 <= c)%Z -> item3 k b c (new_kern x).
Proof.
  intros H B C. pose proof (b_0 _ _ _ L) as P0. unfold item3, new_kern. cbn [t_width t_height t_depth above beneath].
  assert (M0 : P 0 (fmax A f0 f0)) by (eapply mono; [apply (max_P _ _ _ _ P0 P0)|lia]).
  repeat split; eauto.
Qed.
Lemma item3_item w b c t : item3 w b c t -> exists k, item k t.
Proof.
  intros (A1 & A2 & A3 & A4 & A5 & A6 & A7 & A8). exists (Z.max w (b + c)). split; [eapply mono; [exact A1|lia]|].
  repeat split; try assumption. exists b, c. repeat split; auto. lia.
Qed.
Lemma kern_list_items3 b c l : (0 <= b)%Z -> (0 <= c)%Z -> forall K, pushed3 K b c l -> gives (kern_list be l) (items3 K b c).
Proof.
  intros B C. induction l as [|t l IH]; intros K (ks & F2 & T); inversion F2 as [|i ? ks' ? I F2']; subst; cbn [kern_list].
  - apply gives_ret. exists []. split; [constructor|exact T].
  - rewrite total_cons in T. destruct (item3_item _ _ _ _ I) as (k & Ik). apply (gives_bind _ _ (P 3)); [eapply kerning_P; [exact Ik|]; inversion F2'; subst; cbn [hd_error]; [exact Logic.I|eapply item3_item; eauto]|]. intros x X.
    apply (gives_bind _ _ (items3 (K - (i + 3)) b c)); [apply IH; exists ks'; split; [exact F2'|lia]|].
    intros r (rs & R & T2). apply gives_ret. destruct (negb _).
    + exists (i :: 3%Z :: rs). split; [constructor; [exact I|constructor; [now apply kern_item3|exact R]]|]. rewrite !total_cons. lia.
    + exists (i :: rs). split; [constructor; [exact I|exact R]|]. rewrite total_cons. lia.
Qed.
Lemma w_hlist3 K b c l : pushed3 K b c l -> (K <= LIM)%Z -> (0 <= b)%Z -> (0 <= c)%Z -> silent (w_hlist_of be l true) (fresh3 K b c).
Proof.
  intros H Lm B C. unfold w_hlist_of. apply (silent_bind _ _ (items3 K b c)); [apply silent_quiet, kern_list_items3; auto|].
  intros l' I. now apply w_hpack3.
Qed.
Lemma pushed3_nil b c : pushed3 0 b c [].
Proof. exists []. split; [constructor|reflexivity]. Qed.
Lemma pushed3_cons k K b c t l : item3 k b c t -> pushed3 K b c l -> pushed3 (k + 3 + K) b c (t :: l).
Proof. intros I (ks & F2 & T). exists (k :: ks). split; [now constructor|]. rewrite total_cons. lia. Qed.
Lemma pushed3_mono K K' b c l : pushed3 K b c l -> (K <= K')%Z -> pushed3 K' b c l.
Proof. intros (ks & F2 & T) H. exists ks. split; [exact F2|lia]. Qed.
Lemma hbox_item3 k x b c : P k x -> (0 <= b)%Z -> (0 <= c)%Z -> item3 k b c (hbox x).
Proof.
  intros H B C. pose proof (b_0 _ _ _ L) as P0. unfold item3, hbox. cbn [t_width t_height t_depth above beneath b_width b_height b_depth new_box].
  assert (M0 : P 0 (fmax A f0 f0)) by (eapply mono; [apply (max_P _ _ _ _ P0 P0)|lia]).
  repeat split; eauto.
Qed.
Lemma char_item3 ch : item 3 (TChar ch) -> P 1 (c_width ch) -> P 1 (c_height ch) -> P 2 (c_depth ch) -> item3 1 1 2 (TChar ch).
Proof.
  intros (_ & A2 & A3 & A4 & A5 & _ & A8) H1 H2 H3. pose proof (b_0 _ _ _ L) as P0.
  split; [exact H1|]. repeat split; try assumption; try apply A8.
  - eapply mono; [apply (max_P _ _ _ _ P0 H2)|lia].
  - eapply mono; [apply (max_P _ _ _ _ P0 H3)|lia].
Qed.

(** mtex/parser.go:184-240 handleSymbol *)
Lemma w_symbol_P sym pos st m : at_st st -> silent (w_symbol range be expr sym pos st m) (item 20).
Proof.
  intros ok. unfold w_symbol. eapply silent_bind; [apply silent_quiet, new_char_P; [apply Hat; exact (proj2 (proj1 ok))|exact (proj2 ok)]|]. intros ch (I & _).
  assert (I20 : item 20 (TChar ch)) by (eapply item_mono; [exact I|lia]).
  destruct (is_spaced range sym).
  - apply (silent_bind _ _ (fun _ => True)); [apply silent_quiet, gives_lift; auto|]. intros b _. cbv zeta.
    destruct (_ && _); [now apply silent_ret|].
    eapply silent_bind; [apply silent_quiet, fifth_P, ok|]. intros k1 K1. eapply silent_bind; [apply silent_quiet, fifth_P, ok|]. intros k2 K2.
    eapply silent_weak; [apply (w_hlist_P 18)|]; [|lia|intros t T; eapply item_mono; [apply fresh_item; [exact T|lia]|lia]].
    apply (pushed_cons 3 12); [now apply kern2_item|]. apply (pushed_cons 3 6); [exact I|]. apply (pushed_cons 3 0); [now apply kern2_item|apply pushed_nil].
  - destruct (set_has _ _); [|now apply silent_ret]. destruct (String.eqb sym "."); [|apply silent_panic].
    apply (silent_bind _ _ (fun _ => True)); [apply silent_quiet, gives_lift; auto|]. intros b _. cbv zeta.
    destruct (_ && _); [now apply silent_ret|].
    eapply silent_bind; [apply silent_quiet, fifth_P, ok|]. intros k1 K1.
    eapply silent_weak; [apply (w_hlist_P 12)|]; [|lia|intros t T; eapply item_mono; [apply fresh_item; [exact T|lia]|lia]].
    apply (pushed_cons 3 6); [exact I|]. apply (pushed_cons 3 0); [now apply kern2_item|apply pushed_nil].
Qed.
Lemma new_chars_P text st m : at_st st -> gives (new_chars be text st m) (pushed (6 * zlen text)).
Proof.
  intros ok. assert (G : forall l, gives (mmap (fun x => c <- new_char be x st m ;; mret (TChar c)) l) (pushed (6 * Z.of_nat (List.length l)))).
  { induction l as [|x l IH]; cbn [mmap].
    - apply gives_ret, pushed_nil.
    - apply (gives_bind _ _ (item 3)).
      { apply (gives_bind _ _ _ _ (new_char_P x st m (Hat _ (proj2 (proj1 ok))) (proj2 ok))). intros c (I & _). now apply gives_ret. }
      intros t I. apply (gives_bind _ _ _ _ IH). intros r R. apply gives_ret.
      eapply pushed_mono; [apply (pushed_cons _ _ _ _ I R)|]. cbn [List.length]. lia. }
  eapply gives_weak; [apply G|]. intros x X. eapply pushed_mono; [exact X|].
  pose proof (chars_fuel_count (String.length text) text) as C. unfold rune_strings, zlen, chars. rewrite map_length. lia.
Qed.
Lemma w_function_P name st m : at_st st -> (6 * zlen name <= LIM)%Z -> silent (w_function be name st m) (fresh (6 * zlen name)).
Proof.
  intros ok H. unfold w_function. apply (silent_bind _ _ (pushed (6 * zlen name))).
  - apply silent_quiet. eapply gives_weak; [apply new_chars_P; exact ok|]. intros x X. eapply pushed_mono; [exact X|]. pose proof (sdrop_zlen 1 name). lia.
  - intros l P'. now apply w_hlist_P.
Qed.

(** AutoHeightChar *)
Lemma ahc_P c h k d st f : resizes -> at_st st -> P k d -> le f0 d -> (k + 20 <= LIM)%Z -> silent (w_auto_height_char be c h d st f) (item3 6 10 (k + 8)).
Proof.
  intros RS ok D G Lm. pose proof (b_pos _ _ _ L _ _ D) as K0. pose proof (b_0 _ _ _ L) as P0.
  unfold w_auto_height_char. apply (silent_bind _ _ (fun _ => True)); [apply silent_quiet, (keep_xheight _ _ Hinv)|]. intros _ _.
  eapply silent_bind; [apply silent_quiet, new_char_P; [apply Hat; exact (proj2 (proj1 ok))|exact (proj2 ok)]|]. intros ch (I & C1 & C2 & C3).
  apply (silent_bind _ _ (fun cs => item 3 (TChar (fst cs)) /\ P 1 (c_width (fst cs)) /\ P 1 (c_height (fst cs)) /\ P 2 (c_depth (fst cs)) /\
     (snd cs = d - c_depth (fst cs) \/ snd cs = f0))).
  { destruct (negb _).
    - cbv zeta. eapply silent_bind; [apply silent_quiet, new_char_P; [apply Hres; [exact RS|]|]; apply ok|]. intros ch' (I' & D1 & D2 & D3). apply silent_ret. cbn [fst snd]. auto 10.
    - apply silent_ret. cbn [fst snd]. auto 10. }
  intros [ch' sh] (I' & D1 & D2 & D3 & SH). cbn [fst snd] in *.
  apply (silent_bind _ _ (fresh3 4 1 2)).
  { apply w_hlist3; try lia. apply (pushed3_cons 1 0); [now apply char_item3|apply pushed3_nil]. }
  intros t (bx & gs & l & -> & Wd & B & C & G1 & G2). apply silent_ret. cbn [set_shift].
  destruct SH as [-> | ->].
  - assert (S1 : P (k + 2) (d - c_depth ch')) by (apply (b_sub _ _ _ L); auto; lia).
    assert (S2 : P (1 + (k + 2)) (b_height bx - (d - c_depth ch'))) by (apply (b_sub _ _ _ L); auto; lia).
    assert (S3 : P (2 + (k + 2)) (b_depth bx + (d - c_depth ch'))) by (apply (b_add _ _ _ L); auto; lia).
    split; [eapply mono; [exact Wd|lia]|]. cbn [t_height t_depth above beneath]. repeat split; eauto.
    + eapply mono; [eapply (b_drop _ _ _ L _ _ _ _ _ _ B D3 D G)|]; lia.
    + eapply mono; [apply (max_P _ _ _ _ P0 S3)|lia].
  - assert (F4 : fresh3 4 1 2 (TL KHList bx f0 gs l)) by (exists bx, gs, l; auto 10).
    apply fresh3_item in F4; try lia. eapply item3_mono; [exact F4|lia|lia|lia].
Qed.
Lemma w_delimited_P w b c l t r st : resizes -> at_st st -> fresh3 w b c t -> (w + 40 <= LIM)%Z -> (b + c + 40 <= LIM)%Z ->
  silent (w_delimited be l t r st) (fresh3 (w + 21) (b + 10) (c + 8)).
Proof.
  intros RS ok F3 Lm Lm2. pose proof F3 as (bx & gs & l0 & -> & Wd & B & C & G1 & G2). pose proof (b_0 _ _ _ L) as P0.
  pose proof (b_pos _ _ _ L _ _ B). pose proof (b_pos _ _ _ L _ _ C). pose proof (b_pos _ _ _ L _ _ Wd).
  unfold w_delimited. cbn [t_height t_depth]. cbv zeta.
  assert (D : P c (fmax A f0 (b_depth bx))) by (eapply mono; [apply (max_P _ _ _ _ P0 C)|lia]).
  assert (GD : le f0 (fmax A f0 (b_depth bx))) by (eapply max_ge; [exact P0|exact C|apply (le_refl 0%Z), P0]).
  assert (ONE : forall q, silent (if negb (String.eqb q ".") then ahc <-- w_auto_height_char be q (fmax A f0 (b_height bx)) (fmax A f0 (b_depth bx)) st f0 ;; wret [ahc] else wret [])
     (pushed3 9 (b + 10) (c + 8))).
  { intros q. destruct (negb _).
    - eapply silent_bind; [apply (ahc_P _ _ _ _ _ _ RS ok D GD); lia|]. intros x X. apply silent_ret.
      apply (pushed3_cons 6 0); [eapply item3_mono; [exact X|lia|lia|lia]|apply pushed3_nil].
    - apply silent_ret. eapply pushed3_mono; [apply pushed3_nil|lia]. }
  eapply silent_bind; [apply ONE|]. intros pl PL. eapply silent_bind; [apply ONE|]. intros pr PR.
  apply w_hlist3; try lia.
  destruct PL as (k1 & F1 & T1). destruct PR as (k2 & F2 & T2). exists (k1 ++ w :: k2). split.
  - apply Forall2_app; [exact F1|]. constructor; [|exact F2]. eapply item3_mono; [apply fresh3_item; [exact F3|lia|lia|lia]|lia|lia|lia].
  - rewrite total_app, total_cons. lia.
Qed.

(** HCentered, and HPack of its result: the glue has infinite stretch and shrink, so
    packing it to any width is silent. *)
Lemma f0_refl : feqb A (f0 (A:=A)) f0 = true.
Proof. apply (ol_0 A O). Qed.
Definition plain (t : tnode) : Prop := match t with TGlue _ => False | _ => True end.
Lemma dims_glue t d : plain t -> d_stretch (hpack_dims t d) = d_stretch d /\ d_shrink (hpack_dims t d) = d_shrink d.
Proof. destruct t; cbn; intros H; try contradiction; try destruct (_ || _); now split. Qed.
Definition ss_dims (t : tnode) : @dims A := fold_left (fun d x => hpack_dims x d) [glue_ss; t; glue_ss] dims0.
Lemma ss_order t : plain t -> determine_order (d_stretch (ss_dims t)) = 1%nat /\ determine_order (d_shrink (ss_dims t)) = 1%nat.
Proof.
  intros H. unfold ss_dims. cbn [fold_left].
  destruct (dims_glue t (hpack_dims glue_ss dims0) H) as [E1 E2].
  destruct (b_ss _ _ _ L) as (S1 & S2 & _).
  set (d1 := hpack_dims t (hpack_dims glue_ss dims0)) in *.
  unfold glue_ss. cbn [hpack_dims d_stretch d_shrink g_stretch_order g_stretch g_shrink_order g_shrink].
  rewrite E1, E2. unfold glue_ss, dims0, zeros. cbn [hpack_dims d_stretch d_shrink g_stretch_order g_stretch g_shrink_order g_shrink add_at].
  unfold determine_order. cbn [List.length nth]. now rewrite f0_refl, S1, S2.
Qed.
Lemma ss_hd w b c t : item3 w b c t -> (w <= LIM)%Z -> hd3 w b c (ss_dims t).
Proof.
  intros I Lm. pose proof (item3_pos _ _ _ _ I) as W0. pose proof (b_0 _ _ _ L) as P0.
  assert (B0 : (0 <= b)%Z) by (destruct I as (_ & _ & _ & _ & _ & I & _); eapply (b_pos _ _ _ L); eauto).
  assert (C0 : (0 <= c)%Z) by (destruct I as (_ & _ & _ & _ & _ & _ & I & _); eapply (b_pos _ _ _ L); eauto).
  assert (G : forall K d, hd3 K b c d -> (K <= LIM)%Z -> hd3 K b c (hpack_dims glue_ss d)).
  { intros K d (A1 & A2 & A3 & A4 & A5) HK. split; [|cbn; auto].
    cbn [glue_ss hpack_dims d_w g_width]. eapply mono; [apply (b_add _ _ _ L _ _ _ _ A1 P0)|]; lia. }
  unfold ss_dims. cbn [fold_left]. apply G; [|lia]. apply (hd3_step 0 w); [|exact I|lia]. apply G; [|lia]. now apply hd3_0.
Qed.
Lemma w_hcentered_P w b c t : item3 w b c t -> (w <= LIM)%Z ->
  silent (w_hcentered be [t]) (fun r => exists bx gs, r = TL KHList bx f0 gs [glue_ss; t; glue_ss]).
Proof.
  intros I Lm. destruct (ss_hd _ _ _ _ I Lm) as (A1 & _).
  unfold w_hcentered, w_hlist_of. cbn [app]. apply (silent_bind _ _ (fun l => l = [glue_ss; t; glue_ss])); [now apply silent_quiet, gives_ret|].
  intros l ->. apply silent_say.
  - unfold hpack_log, list_of. cbv zeta. apply pack_silent. apply (b_cancel _ _ _ L _ _ A1 Lm).
  - unfold hpack, list_of. cbv zeta. eauto.
Qed.
Lemma repack_P w b c bx gs t k width : item3 w b c t -> (w <= LIM)%Z -> P k width ->
  silent (w_hpack width false (TL KHList bx f0 gs [glue_ss; t; glue_ss])) (fresh3 k b c).
Proof.
  intros I Lm K. destruct (ss_hd _ _ _ _ I Lm) as (A1 & A2 & A3 & A4 & A5).
  assert (PL : plain t) by (destruct I as (_ & _ & _ & _ & _ & _ & _ & Q); destruct t; cbn in Q |- *; auto).
  destruct (ss_order t PL) as [O1 O2].
  apply silent_say.
  - unfold hpack_log. cbv zeta. fold (ss_dims t). unfold pack_log, set_glue_log. rewrite O1, O2. cbn [Nat.eqb].
    repeat match goal with |- context [if ?b then _ else _] => destruct b end; reflexivity.
  - unfold hpack. cbv zeta. fold (ss_dims t).
    eexists _, _, _. split; [reflexivity|]. cbn [b_width b_height b_depth]. auto.
Qed.

(** Shrink *)
Lemma shrink_inv t : gives (shrink be t) (fun _ => True).
Proof.
  induction t as [bx|bx|ch|ch|g|sz w|kd bx sh gs l IH] using tnode_ind'; cbn [shrink]; cbv zeta; try (now apply gives_ret).
  - apply (gives_bind _ _ (fun _ => True)); [|intros x _; now apply gives_ret].
    apply (gives_bind _ _ (fun _ => True)); [apply (keep_metrics _ _ Hinv)|intros x _; now apply gives_ret].
  - apply (gives_bind _ _ (fun _ => True)); [|intros x _; now apply gives_ret].
    induction IH as [|x l H _ IHl]; cbn [mmap]; [now apply gives_ret|].
    eapply gives_bind; [exact H|]. intros y _. eapply gives_bind; [exact IHl|]. intros r _. now apply gives_ret.
Qed.
Lemma shrink_list l : gives (mmap (shrink be) l) (fun _ => True).
Proof.
  induction l as [|x l IHl]; cbn [mmap]; [now apply gives_ret|].
  eapply gives_bind; [apply shrink_inv|]. intros y _. eapply gives_bind; [exact IHl|]. intros r _. now apply gives_ret.
Qed.
Lemma shrink_fresh w b c t : fresh3 w b c t -> (w <= LIM)%Z -> (b <= LIM)%Z -> (c <= LIM)%Z -> gives (shrink be t) (item3 w b c).
Proof.
  intros (bx & gs & l & -> & Wd & B & C & G1 & G2) L1 L2 L3. cbn [shrink]. apply (gives_bind _ _ (fun _ => True)); [apply shrink_list|]. intros l' _. apply gives_ret.
  pose proof (b_0 _ _ _ L) as P0. pose proof (b_pos _ _ _ L _ _ B). pose proof (b_pos _ _ _ L _ _ C).
  assert (SZ : forall sh, P 0 sh -> forall k' gs' b', P w (b_width b') -> P b (b_height b') -> P c (b_depth b') -> item3 w b c (TL k' b' sh gs' l')).
  { intros sh S0 k' gs' b' W' B' C'. 
    assert (U : P b (b_height b' - sh)) by (eapply mono; [apply (b_sub _ _ _ L _ _ _ _ B' S0); lia|lia]).
    assert (V : P c (b_depth b' + sh)) by (eapply mono; [apply (b_add _ _ _ L _ _ _ _ C' S0); lia|lia]).
    unfold item3. cbn [t_width t_height t_depth above beneath]. repeat split; eauto.
    - eapply mono; [apply (max_P _ _ _ _ P0 U)|lia].
    - eapply mono; [apply (max_P _ _ _ _ P0 V)|lia]. }
  assert (SB : P w (b_width (box_shrink bx)) /\ P b (b_height (box_shrink bx)) /\ P c (b_depth (box_shrink bx))).
  { unfold box_shrink. cbv zeta. destruct (_ <? _)%Z; cbn [scale_box box_size b_width b_height b_depth]; [|auto].
    repeat split; apply (b_shrink _ _ _ L); auto. }
  destruct SB as (S1 & S2 & S3). cbv zeta.
  destruct (_ <? _)%Z; apply SZ; auto. eapply mono; [apply (b_shrink _ _ _ L _ _ P0); lia|lia].
Qed.
Lemma rule_P st r : at_st st -> P 1 r -> gives (hrule be st r) (fun t => exists h, t = new_rule (fpinf A) h h /\ P 1 h).
Proof.
  intros ok R. unfold hrule. apply (gives_bind _ _ (P 1)).
  - destruct (fltb A _ _); [now apply Hline1|now apply gives_ret].
  - intros t T. apply gives_ret. eexists. split; [reflexivity|]. apply (b_half _ _ _ L); auto. lia.
Qed.
Lemma silent_vlist l d (Q : tnode -> Prop) K :
  vfold l dims0 = LOk d -> P K (d_h d) -> (K <= LIM)%Z -> (exists c, P c (d_d d)) ->
  (forall gs, Q (TL KVList (mk_box 0 (d_w d) (f0 + d_h d) (d_d d)) f0 gs l)) -> silent (w_vlist_of l) Q.
Proof.
  intros V H Lm (c & C) HQ. unfold w_vlist_of, w_vpack, vpack_log, vpack, list_of. rewrite V.
  destruct (b_inf _ _ _ L) as [_ I]. rewrite (I _ _ C). cbn [b_size new_box]. apply silent_lift.
  - apply pack_silent. apply (b_cancel _ _ _ L _ _ H Lm).
  - intros x E. match type of E with LOk ?y = _ => assert (X : y = x) by congruence end. subst x. apply HQ.
Qed.
Lemma genfrac_P wn bn cn wd bd cd ld rd rule sty num den st :
  at_st st -> resizes \/ (ld = "" /\ rd = "") -> fresh3 wn bn cn num -> fresh3 wd bd cd den -> P 1 rule -> (wn + wd + 200 <= LIM)%Z -> (bn + cn + bd + cd + 200 <= LIM)%Z ->
  silent (w_genfrac be ld rd rule sty num den st) (fresh3 (wn + wd + 29) (bn + cn + 23) (bd + cd + 13)).
Proof.
  intros ok RS FN FD R Lm Lm2.
  assert (PN : (0 <= wn /\ 0 <= bn /\ 0 <= cn)%Z) by (destruct FN as (? & ? & ? & _ & X & Y & Z' & _); repeat split; eapply (b_pos _ _ _ L); eauto).
  assert (PD : (0 <= wd /\ 0 <= bd /\ 0 <= cd)%Z) by (destruct FD as (? & ? & ? & _ & X & Y & Z' & _); repeat split; eapply (b_pos _ _ _ L); eauto).
  pose proof (b_0 _ _ _ L) as P0.
  unfold w_genfrac. apply (silent_bind _ _ (fun x => P 1 x /\ le f0 x)).
  { apply silent_quiet. eapply gives_weak; [now apply Hline|]. now intros x (_ & ? & ?). }
  intros th (TH & _).
  apply (silent_bind _ _ (item3 wn bn cn)).
  { apply silent_quiet. destruct sty; [apply gives_ret, fresh3_item; auto; lia|apply shrink_fresh; auto; lia]. }
  intros n N. apply (silent_bind _ _ (item3 wd bd cd)).
  { apply silent_quiet. destruct sty; [apply gives_ret, fresh3_item; auto; lia|apply shrink_fresh; auto; lia]. }
  intros d D. eapply silent_bind; [apply (w_hcentered_P _ _ _ _ N); lia|]. intros c1 (b1 & g1 & ->).
  eapply silent_bind; [apply (w_hcentered_P _ _ _ _ D); lia|]. intros c2 (b2 & g2 & ->). cbv zeta.
  assert (WI : P (wn + wd) (fmax A (t_width n) (t_width d))).
  { eapply mono; [apply (max_P wn wd); [apply N|apply D]|lia]. }
  eapply silent_bind; [apply (repack_P _ _ _ _ _ _ _ _ N ltac:(lia) WI)|]. intros cn' (bn' & gn & ln & -> & N1 & N2 & N3 & _).
  eapply silent_bind; [apply (repack_P _ _ _ _ _ _ _ _ D ltac:(lia) WI)|]. intros cd' (bd' & gd & lde & -> & D1 & D2 & D3 & _).
  eapply silent_bind; [apply silent_quiet, rule_P; [exact ok|exact R]|]. intros bar (h & -> & HB).
  destruct (b_two _ _ _ L _ _ TH ltac:(lia)) as (T2 & T2' & _).
  apply (silent_bind _ _ (fun t => exists bx x gs l, t = TL KVList bx f0 gs l /\ P (wn + wd) (b_width bx) /\
     b_height bx = f0 + (x + (th * fofZ A 2 + b_height bd')) /\ P (bn + cn + 4) x /\ b_depth bx = b_depth bd')).
  { destruct (b_inf _ _ _ L) as [INF _].
    assert (H1 : P bn (f0 + (f0 + b_height bn'))).
    { eapply mono; [apply (b_add _ _ _ L 0%Z (0 + bn)%Z); [exact P0|apply (b_add _ _ _ L); auto; lia|lia]|lia]. }
    assert (H2 : P (bn + cn) (f0 + (f0 + b_height bn') + (b_depth bn' + f0))).
    { eapply mono; [apply (b_add _ _ _ L bn (cn + 0)%Z); [exact H1|apply (b_add _ _ _ L); auto; lia|lia]|lia]. }
    assert (H3 : P (bn + cn + 3) (f0 + (f0 + b_height bn') + (b_depth bn' + f0) + (th * fofZ A 2 + h))).
    { eapply mono; [apply (b_add _ _ _ L (bn + cn)%Z (2 * 1 + 1)%Z); [exact H2|apply (b_add _ _ _ L); auto; lia|lia]|lia]. }
    assert (H4 : P (bn + cn + 4) (f0 + (f0 + b_height bn') + (b_depth bn' + f0) + (th * fofZ A 2 + h) + (h + f0))).
    { eapply mono; [apply (b_add _ _ _ L (bn + cn + 3)%Z (1 + 0)%Z); [exact H3|apply (b_add _ _ _ L); auto; lia|lia]|lia]. }
    assert (MX : P (wn + wd) (fmax A (fmax A (fmax A (fmax A f0 (b_width bn')) f0) f0) (b_width bd'))).
    { assert (Q0 : P (wn + wd) (f0 (A:=A))) by (eapply mono; [exact P0|lia]).
      assert (MM : forall x y, P (wn + wd) x -> P (wn + wd) y -> P (wn + wd) (fmax A x y)) by (intros x y X Y; eapply mono; [apply (max_P _ _ _ _ X Y)|lia]).
      apply MM; [apply MM; [apply MM; [apply MM|]|]|]; assumption. }
    eapply silent_vlist with (K := (bn + cn + 4 + (2 * 1 + bd))%Z).
    - cbn [vfold vpack_dims vbox new_box new_rule b_width b_height b_depth dims0 d_w d_h d_d d_stretch d_shrink].
      rewrite (b_fin _ _ _ L _ _ N1), (b_fin _ _ _ L _ _ D1), (b_fin _ _ _ L _ _ P0), INF. reflexivity.
    - cbn [d_h]. apply (b_add _ _ _ L); [exact H4|apply (b_add _ _ _ L); auto; lia|lia].
    - lia.
    - cbn [d_d]. eauto.
    - intros gs. cbn [d_w d_h d_d]. eexists _, _, _, _. split; [reflexivity|]. cbn [b_width b_height b_depth]. repeat split; [exact MX|exact H4]. }
  intros vl (bx & x & gs & l & -> & V1 & V2 & V3 & V4).
  apply (silent_bind _ _ (fun m => P 1 (m_ymax m) /\ P 1 (m_ymin m))).
  { apply silent_quiet. rewrite (proj2 ok). eapply gives_weak; [apply met_P, Hat; exact (proj2 (proj1 ok))|]. intros m (_ & _ & _ & _ & ? & ? & _). auto. }
  intros m (M1 & M2). cbn [t_height set_shift].
  set (z := (m_ymax m + m_ymin m) / fofZ A 2 - fofZ A 3 * th).
  assert (Z5 : P 5 z).
  { apply (b_sub _ _ _ L 2 (3 * 1)); [|apply (b_three _ _ _ L); auto; lia|lia].
    apply (b_two _ _ _ L 2); [|lia]. apply (b_add _ _ _ L 1 1); auto; lia. }
  assert (SH : P (bd + 5) (b_height bd' - z)) by (apply (b_sub _ _ _ L); auto; lia).
  assert (UP : P (bn + cn + 13) (b_height bx - (b_height bd' - z))).
  { rewrite V2. eapply mono; [apply (b_shift _ _ _ L _ _ _ _ _ _ _ _ V3 T2' D2 Z5)|]; lia. }
  assert (DN : P (bd + cd + 5) (b_depth bx + (b_height bd' - z))).
  { rewrite V4. eapply mono; [apply (b_add _ _ _ L _ _ _ _ D3 SH)|]; lia. }
  apply (silent_bind _ _ (fresh3 (wn + wd + 8) (bn + cn + 13) (bd + cd + 5))).
  { apply w_hlist3; try lia. eapply pushed3_mono; [apply (pushed3_cons (wn + wd) (2 + 3 + 0))|lia].
    - split; [exact V1|]. cbn [t_height t_depth above beneath]. split.
      { eexists. rewrite V2. apply (b_add _ _ _ L 0 (bn + cn + 4 + (2 * 1 + bd))); [exact P0| |lia]. apply (b_add _ _ _ L); [exact V3| |lia]. apply (b_add _ _ _ L); auto. lia. }
      split; [rewrite V4; eauto|]. split; [eauto|]. split; [eauto|].
      split; [eapply mono; [apply (max_P _ _ _ _ P0 UP)|lia]|]. split; [eapply mono; [apply (max_P _ _ _ _ P0 DN)|lia]|exact I].
    - apply pushed3_cons; [|apply pushed3_nil]. apply hbox_item3; [exact T2|lia|lia]. }
  intros fr FR. destruct (_ || _) eqn:DL.
  - assert (RS' : resizes) by (destruct RS as [RS|[-> ->]]; [exact RS|discriminate DL]).
    eapply silent_weak; [apply (w_delimited_P _ _ _ _ _ _ _ RS' ok FR); lia|]. intros t (bt & gt & lt & E & Q1 & Q2 & Q3 & Q4).
    exists bt, gt, lt. split; [exact E|]. repeat split; try apply Q4; (eapply mono; [eassumption|lia]).
  - apply silent_ret. destruct FR as (bt & gt & lt & E & Q1 & Q2 & Q3 & Q4). exists bt, gt, lt. split; [exact E|]. repeat split; try apply Q4; (eapply mono; [eassumption|lia]).
Qed.

(** Overline: the bar, fill glue and the body, packed to a height at least their own. *)
Lemma fill_order : determine_order (add_at 2 (f1 (A:=A)) (zeros (A:=A))) = 2%nat.
Proof.
  destruct (b_ss _ _ _ L) as (_ & _ & S3). unfold zeros. cbn [add_at]. unfold determine_order. cbn [List.length nth].
  now rewrite f0_refl, S3.
Qed.
Lemma overline_P w b c t st : fresh3 w b c t -> (w + 200 <= LIM)%Z -> (b + c + 200 <= LIM)%Z ->
  at_st st ->
  silent (w_overline_box be t st) (fresh3 (w + 6) (b + 4) c).
Proof.
  intros FB Lm Lm2 ok. pose proof (proj2 (proj1 ok)) as SZ. pose proof (proj2 ok) as DP. pose proof FB as (bx & gs & l & -> & Wd & B & C & G1 & G2).
  pose proof (b_0 _ _ _ L) as P0. pose proof (b_pos _ _ _ L _ _ B). pose proof (b_pos _ _ _ L _ _ C). pose proof (b_pos _ _ _ L _ _ Wd).
  unfold w_overline_box. apply (silent_bind _ _ (fun x => x = line (st_font st) dpi /\ P 1 x /\ le f0 x)).
  { apply silent_quiet. now apply Hline. }
  intros th (ET & TH & GT). cbn [t_height t_depth t_shift]. cbv zeta.
  destruct (b_half_le _ _ _ L _ _ TH ltac:(lia) GT) as [HL1 HL2]. pose proof (b_half _ _ _ L _ _ TH ltac:(lia)) as HT.
  set (ht := frat 1 2 * th) in *.
  apply (silent_bind _ _ (fun r => r = new_rule (fpinf A) ht ht)).
  { apply silent_quiet. unfold hrule. rewrite (b_neg1 _ _ _ L). apply (gives_bind _ _ (fun x => x = th)).
    { rewrite ET. eapply gives_weak; [now apply Hline|]. now intros x (? & _). }
    intros u ->. apply gives_ret. reflexivity. }
  intros r ->.
  (* the body in a list of its own *)
  assert (UB : P b (b_height bx - f0)) by (eapply mono; [apply (b_sub _ _ _ L _ _ _ _ B P0); lia|lia]).
  assert (UC : P c (b_depth bx + f0)) by (eapply mono; [apply (b_add _ _ _ L _ _ _ _ C P0); lia|lia]).
  set (ih := fmax A f0 (b_height bx - f0)). set (id := fmax A f0 (b_depth bx + f0)).
  assert (IH : P b ih) by (eapply mono; [apply (max_P _ _ _ _ P0 UB)|lia]).
  assert (ID : P c id) by (eapply mono; [apply (max_P _ _ _ _ P0 UC)|lia]).
  assert (GI : le f0 ih) by (eapply max_ge; [exact P0|exact UB|apply (le_refl 0%Z), P0]).
  apply (silent_bind _ _ (fun r => exists bi gi li, r = TL KHList bi f0 gi li /\ P w (b_width bi) /\ b_height bi = ih /\ b_depth bi = id)).
  { assert (DM : fold_left (fun d x => hpack_dims x d) [TL KHList bx f0 gs l] dims0 = mk_dims (f0 + b_width bx) ih id zeros zeros).
    { cbn [fold_left hpack_dims dims0 d_w d_h d_d d_stretch d_shrink]. now rewrite (b_fin _ _ _ L _ _ B), (b_fin _ _ _ L _ _ C). }
    assert (W1 : P w (f0 + b_width bx)) by (eapply mono; [apply (b_add _ _ _ L _ _ _ _ P0 Wd)|]; lia).
    assert (W2 : P w (f0 + (f0 + b_width bx))) by (eapply mono; [apply (b_add _ _ _ L _ _ _ _ P0 W1)|]; lia).
    unfold w_hlist_of. apply (silent_bind _ _ (fun l' => l' = [TL KHList bx f0 gs l])).
    { apply silent_quiet. cbn [kern_list kerning hd_error]. apply (gives_bind _ _ (fun x => x = f0)); [now apply gives_ret|]. intros x ->. apply (gives_bind _ _ (fun r => r = [])); [now apply gives_ret|]. intros r' ->. apply gives_ret. now rewrite f0_refl. }
    intros l' ->. apply silent_say.
    - unfold hpack_log, list_of. rewrite DM. cbv zeta. cbn [d_w]. apply pack_silent. apply (b_cancel _ _ _ L _ _ W1). lia.
    - unfold hpack, list_of. rewrite DM. cbv zeta. cbn [d_w d_h d_d].
      eexists _, _, _. split; [reflexivity|]. cbn [b_width b_height b_depth]. auto. }
  intros inn (bi & gi & li & -> & WI & EH & ED).
  destruct (b_inf _ _ _ L) as [INF LINF].
  (* the stack *)
  set (nat := f0 + (f0 + ht) + ht + f0 + (f0 + ih)).
  assert (P1 : P 1 (f0 + ht)) by (apply (b_add _ _ _ L 0 1); auto; lia).
  assert (P2 : P 1 (f0 + (f0 + ht))) by (apply (b_add _ _ _ L 0 1); auto; lia).
  assert (P3 : P 2 (f0 + (f0 + ht) + ht)) by (apply (b_add _ _ _ L 1 1); auto; lia).
  assert (P4 : P 2 (f0 + (f0 + ht) + ht + f0)) by (apply (b_add _ _ _ L 2 0); auto; lia).
  assert (P5 : P b (f0 + ih)) by (apply (b_add _ _ _ L 0 b); auto; lia).
  assert (PN : P (2 + b) nat) by (apply (b_add _ _ _ L); auto; lia).
  assert (VF : vfold [new_rule (fpinf A) ht ht; glue_fill; TL KHList bi f0 gi li] dims0 =
     LOk (mk_dims (fmax A f0 (b_width bi)) nat id (add_at 2 f1 zeros) (add_at 0 f0 zeros))).
  { cbn [vfold vpack_dims new_rule new_box glue_fill b_width b_height b_depth dims0 d_w d_h d_d d_stretch d_shrink g_width g_stretch_order g_stretch g_shrink_order g_shrink].
    rewrite INF, (b_fin _ _ _ L _ _ WI), EH, ED. reflexivity. }
  apply (silent_bind _ _ (fun r => exists bv gv, r = TL KVList bv f0 gv [new_rule (fpinf A) ht ht; glue_fill; TL KHList bi f0 gi li])).
  { eapply silent_vlist with (K := (2 + b)%Z); [exact VF|exact PN|lia|cbn [d_d]; eauto|]. intros gv. eauto. }
  intros rhs (bv & gv & ->). rewrite SZ, DP. destruct Hsize as [PS GS]. set (cl := size * dpi / fofZ A 1200) in *.
  pose proof (b_three _ _ _ L _ _ TH ltac:(lia)) as T3. pose proof (b_three_le _ _ _ L _ _ TH ltac:(lia) GT) as T3L.
  set (zz := b_height bx - f0) in *.
  assert (GZ : le f0 zz) by (apply (b_ge _ _ _ L 0 b f0 (b_height bx) P0 B ltac:(lia) ltac:(lia) G1)).
  assert (IZ : le ih zz) by (apply (max_le b); auto).
  assert (CMP : le nat (zz + fofZ A 3 * th + cl)).
  { assert (Q1 : le (f0 + ht) ht) by (apply (b_idl _ _ _ L 1); auto; lia).
    assert (Q2 : le (f0 + (f0 + ht)) (f0 + ht)) by (apply (b_idl _ _ _ L 1); auto; lia).
    assert (Q3 : le (f0 + (f0 + ht)) th) by (eapply le_trans; [exact P2|exact P1|exact TH|exact Q2|]; eapply le_trans; [exact P1|exact HT|exact TH|exact Q1|exact HL1]).
    assert (TT : P 2 (th + th)) by (apply (b_add _ _ _ L 1 1); auto; lia).
    assert (Q4 : le (f0 + (f0 + ht) + ht) (th + th)) by (eapply (b_le_add _ _ _ L 1 1 1 1); eauto; lia).
    assert (Q5 : le (f0 + (f0 + ht) + ht + f0) (f0 + (f0 + ht) + ht)).
    { rewrite (b_comm _ _ _ L _ _ _ _ P3 P0). apply (b_idl _ _ _ L 2); auto; lia. }
    assert (Q6 : le (f0 + (f0 + ht) + ht + f0) (fofZ A 3 * th)).
    { eapply le_trans; [exact P4|exact P3|exact T3|exact Q5|]. eapply le_trans; [exact P3|exact TT|exact T3|exact Q4|exact T3L]. }
    assert (Q7 : le (f0 + ih) zz).
    { eapply le_trans; [exact P5|exact IH|exact UB|apply (b_idl _ _ _ L b); auto; lia|exact IZ]. }
    assert (S1 : P (3 * 1 + b) (fofZ A 3 * th + zz)) by (apply (b_add _ _ _ L); auto; lia).
    assert (S2 : P (b + 3 * 1) (zz + fofZ A 3 * th)) by (apply (b_add _ _ _ L); auto; lia).
    assert (S3 : P (b + 3 * 1 + 1) (zz + fofZ A 3 * th + cl)) by (apply (b_add _ _ _ L); auto; lia).
    assert (Q8 : le nat (fofZ A 3 * th + zz)) by (eapply (b_le_add _ _ _ L 2 (3 * 1) b b); eauto; lia).
    rewrite (b_comm _ _ _ L _ _ _ _ T3 UB) in Q8.
    eapply le_trans; [exact PN|exact S2|exact S3|exact Q8|].
    assert (S4 : P (b + 3 * 1 + 0) (zz + fofZ A 3 * th + f0)) by (apply (b_add _ _ _ L); auto; lia).
    eapply le_trans; [exact S2|exact S4|exact S3| |].
    - rewrite (b_comm _ _ _ L _ _ _ _ S2 P0). apply (b_idl _ _ _ L (b + 3 * 1)); auto; lia.
    - eapply (b_le_add _ _ _ L (b + 3 * 1) (b + 3 * 1) 0 1); eauto; try lia. eapply le_refl; eauto. }
  assert (S3 : P (b + 4) (zz + fofZ A 3 * th + cl)).
  { eapply mono; [apply (b_add _ _ _ L (b + 3 * 1) 1); [apply (b_add _ _ _ L); auto; lia|exact PS|lia]|lia]. }
  assert (GL : le f0 (b_depth bx + f0)).
  { rewrite (b_comm _ _ _ L _ _ _ _ C P0). eapply le_trans; [exact P0|exact C|rewrite <- (b_comm _ _ _ L _ _ _ _ C P0); exact UC|exact G2|]. apply (b_idl _ _ _ L c); auto; lia. }
  assert (LI : fltb A (b_depth bx + f0) id = false) by (apply (max_le c); auto).
  destruct (b_ge _ _ _ L _ _ _ _ PN S3 ltac:(lia) ltac:(lia) CMP) as [_ GE].
  apply (silent_bind _ _ (fun r => exists bv gv lv, r = TL KVList bv f0 gv lv /\ P w (b_width bv) /\ b_height bv = zz + fofZ A 3 * th + cl /\ b_depth bv = id)).
  { unfold w_vpack, vpack_log, vpack. rewrite VF. cbn [d_d d_h d_w fst snd]. rewrite LI. cbv zeta. apply silent_lift.
    - unfold pack_log, set_glue_log. cbn [d_stretch]. rewrite fill_order. cbn [Nat.eqb]. destruct GE as [-> | ->]; [reflexivity|]. now destruct (feqb A _ _).
    - intros x E. match type of E with LOk ?y = _ => assert (X : y = x) by congruence end. subst x.
      eexists _, _, _. split; [reflexivity|]. cbn [b_width b_height b_depth]. split; [|auto]. eapply mono; [apply (max_P _ _ _ _ P0 WI)|lia]. }
  intros rhs (bw & gw & lw & -> & R1 & R2 & R3).
  eapply silent_weak; [apply (w_hlist3 (w + 3) (b + 4) c)|]; try lia.
  - eapply pushed3_mono; [apply (pushed3_cons w 0); [|apply pushed3_nil]|lia].
    assert (U1 : P (b + 4) (b_height bw - f0)) by (rewrite R2; eapply mono; [apply (b_sub _ _ _ L _ _ _ _ S3 P0); lia|lia]).
    assert (U2 : P c (b_depth bw + f0)) by (rewrite R3; eapply mono; [apply (b_add _ _ _ L _ _ _ _ ID P0); lia|lia]).
    unfold item3. cbn [t_width t_height t_depth above beneath]. split; [exact R1|]. split; [rewrite R2; eauto|]. split; [rewrite R3; eauto|]. split; [eauto|]. split; [eauto|].
    split; [eapply mono; [apply (max_P _ _ _ _ P0 U1)|lia]|]. split; [eapply mono; [apply (max_P _ _ _ _ P0 U2)|lia]|exact I].
  - intros t (bt & gt & lt & E & Q1 & Q2 & Q3 & Q4). exists bt, gt, lt. split; [exact E|]. split; [eapply mono; [exact Q1|lia]|auto].
Qed.

(** The walk. *)
(** Whether roots are admitted. *)
Variable roots : Prop.
Hypothesis Hroots : roots -> forall root body st kr kb, fresh kb body -> match root with Some r => fresh kr r | None => True end ->
  at_st st -> silent (w_sqrt_box be root body st) (fresh 100).
Definition vis (K : Z) (v : visitor) : Prop :=
  pushed K (v_nodes v) /\ at_st (v_state v).
Lemma vis_push K k k' t v : vis K v -> item k t -> (k + 3 <= k')%Z -> vis (K + k') (push t v).
Proof.
  intros (H1 & H2) I Le. split; [|exact H2]. cbn [push v_nodes].
  eapply pushed_mono; [apply (pushed_app _ (k + 3 + 0) _ _ H1); apply pushed_cons; [exact I|apply pushed_nil]|lia].
Qed.
Lemma vis_pos K v : vis K v -> (0 <= K)%Z.
Proof.
  intros ((ks & F2 & T) & _). assert (0 <= total (fun k => k + 3) ks)%Z; [|lia].
  clear -F2 L. induction F2 as [|i t ks l I F2 IH]; [reflexivity|rewrite total_cons; pose proof (item_pos _ _ I); lia].
Qed.
Definition walked (f : node -> visitor -> W visitor) (n : node) : Prop :=
  forall K v, vis K v -> (K + 64 * cost n + 400 <= LIM)%Z -> silent (f n v) (vis (K + 64 * cost n)).
Lemma fold_P f l : Forall (walked f) l -> forall K v, vis K v -> (K + 64 * total cost l + 400 <= LIM)%Z -> silent (w_fold f l v) (vis (K + 64 * total cost l)).
Proof.
  induction 1 as [|x l H _ IH]; intros K v V Lm; cbn [w_fold].
  - apply silent_ret. change (total cost []) with 0%Z. now replace (K + 64 * 0)%Z with K by lia.
  - rewrite total_cons in *. pose proof (cost_nonneg x). pose proof (total_nonneg cost l cost_nonneg).
    eapply silent_bind; [apply (H K v V); lia|]. intros v' V'. eapply silent_weak; [apply (IH _ _ V'); lia|].
    intros v2. now replace (K + 64 * cost x + 64 * total cost l)%Z with (K + 64 * (cost x + total cost l))%Z by lia.
Qed.
Lemma list_P f l st m : Forall (walked f) l -> (64 * total cost l + 400 <= LIM)%Z -> at_st st ->
  silent (w_list be f l st m) (fresh (64 * total cost l)).
Proof.
  intros H Lm ok. unfold w_list. apply (silent_bind _ _ (vis (0 + 64 * total cost l))).
  - apply (fold_P _ _ H); [|lia]. split; [apply pushed_nil|exact ok].
  - intros v (V & _). rewrite Z.add_0_l in V. apply w_hlist_P; [exact V|lia].
Qed.
Definition inner_walked (f : node -> visitor -> W visitor) (l : list node) : Prop :=
  Forall (fun n => match n with NArg _ l _ | NOptArg _ l _ => Forall (walked f) l | _ => True end) l.
Lemma frac_P f ld rd rule sty l st m : resizes \/ (ld = "" /\ rd = "") -> inner_walked f l -> (64 * total cost l + 400 <= LIM)%Z -> at_st st -> P 1 rule ->
  silent (w_frac_args be f ld rd rule sty l st m) (fresh (64 * total cost l + 40)).
Proof.
  intros RS H Lm ok R. unfold w_frac_args. destruct l as [|[] [|[] l]]; try apply silent_panic.
  inversion H as [|? ? P1 H1]; subst. inversion H1 as [|? ? P2 _]; subst. rewrite !total_cons in *. cbn [cost] in *.
  match goal with H : context [total cost ?a + (1 + total cost ?b + total cost l)] |- _ => idtac | _ => idtac end.
  pose proof (total_nonneg cost l cost_nonneg). pose proof (total_nonneg cost l0 cost_nonneg). pose proof (total_nonneg cost l1 cost_nonneg).
  eapply silent_bind; [apply (list_P _ _ st m P1); auto; lia|]. intros n N. eapply silent_bind; [apply (list_P _ _ st m P2); auto; lia|]. intros d D.
  apply fresh_fresh3 in N as (bn & cn & N & LN). apply fresh_fresh3 in D as (bd & cd & D & LD).
  eapply silent_weak; [apply (genfrac_P _ _ _ _ _ _ ld rd rule sty _ _ st ok RS N D R); lia|].
  intros t T. eapply fresh3_fresh; [exact T|lia|lia].
Qed.
Lemma overline_args_P f l st m : inner_walked f l -> (64 * total cost l + 400 <= LIM)%Z -> at_st st ->
  silent (w_overline be f l st m) (fresh (64 * total cost l + 40)).
Proof.
  intros H Lm ok. unfold w_overline. destruct l as [|[] l]; try apply silent_panic.
  inversion H as [|? ? P1 _]; subst. rewrite !total_cons in *. cbn [cost] in *.
  pose proof (total_nonneg cost l cost_nonneg). pose proof (total_nonneg cost l0 cost_nonneg).
  eapply silent_bind; [apply (list_P _ _ st m P1); auto; lia|]. intros n N. apply fresh_fresh3 in N as (bn & cn & N & LN).
  eapply silent_weak; [apply (overline_P _ _ _ _ st N); auto; lia|]. intros t T. eapply fresh3_fresh; [exact T|lia|lia].
Qed.

Lemma sqrt_args_P f l st m : roots -> inner_walked f l -> (64 * total cost l + 400 <= LIM)%Z -> at_st st ->
  silent (w_sqrt be f l st m) (fresh 100).
Proof.
  intros R H Lm ok. unfold w_sqrt. pose proof (total_nonneg cost l cost_nonneg).
  destruct l as [|n1 [|n2 [|n3 l]]]; [apply silent_panic| | |destruct n1; try apply silent_panic; destruct n2; apply silent_panic].
  - destruct n1; try apply silent_panic. inversion H as [|? ? P1 _]; subst. rewrite !total_cons in *. cbn [cost] in *. change (total cost []) with 0%Z in *.
    eapply silent_bind; [apply (list_P _ _ st m P1); auto; lia|]. intros n N. eapply (Hroots R None); eauto.
  - destruct n1; try apply silent_panic. inversion H as [|? ? P1 H1]; subst. inversion H1 as [|? ? P2 _]; subst. rewrite !total_cons in *. cbn [cost] in *. change (total cost []) with 0%Z in *.
    pose proof (cost_nonneg n2). pose proof (total_nonneg cost l cost_nonneg).
    destruct n2; (eapply silent_bind; [apply (list_P _ _ st m P1); auto; lia|]); intros n N; try apply silent_panic. cbn [cost] in *.
    eapply silent_bind; [apply (list_P _ _ st m P2); auto; lia|]. intros b B. eapply (Hroots R (Some n)); eauto.
Qed.

Lemma handler_sqrt name h : handler range name = LOk (Some h) -> name <> "\sqrt" -> h <> HSqrt.
Proof.
  intros E N ->. unfold handler in E.
  destruct (match assoc name space_width with Some _ => true | None => false end); [congruence|].
  destruct (is_spaced range name || _); [congruence|].
  destruct (String.eqb name "\hspace"); [congruence|]. destruct name as [|a tl]; [congruence|].
  destruct (set_has _ tl); [congruence|].
  destruct (String.eqb _ "\frac"); [congruence|]. destruct (String.eqb _ "\dfrac"); [congruence|]. destruct (String.eqb _ "\tfrac"); [congruence|].
  destruct (String.eqb _ "\binom"); [congruence|]. destruct (String.eqb_spec (String a tl) "\sqrt") as [Q|_]; [now apply N|].
  destruct (String.eqb _ "\overline"); [congruence|]. destruct (has_macro _); congruence.
Qed.
Lemma handler_binom name h : handler range name = LOk (Some h) -> name <> "\binom" -> h <> HBinom.
Proof.
  intros E N ->. unfold handler in E.
  destruct (match assoc name space_width with Some _ => true | None => false end); [congruence|].
  destruct (is_spaced range name || _); [congruence|].
  destruct (String.eqb name "\hspace"); [congruence|]. destruct name as [|a tl]; [congruence|].
  destruct (set_has _ tl); [congruence|].
  destruct (String.eqb _ "\frac"); [congruence|]. destruct (String.eqb _ "\dfrac"); [congruence|]. destruct (String.eqb _ "\tfrac"); [congruence|].
  destruct (String.eqb_spec (String a tl) "\binom") as [Q|_]; [now apply N|]. destruct (String.eqb _ "\sqrt"); [congruence|].
  destruct (String.eqb _ "\overline"); [congruence|]. destruct (has_macro _); congruence.
Qed.
Lemma macro_P f h pos name l st m k : roots \/ h <> HSqrt -> resizes \/ h <> HBinom -> inner_walked f l -> (2 <= k)%Z -> (zlen name <= k)%Z -> (64 * (k + total cost l) + 400 <= LIM)%Z ->
  at_st st ->
  silent (w_macro range be parse_float expr f h pos name l st m) (item (64 * (k + total cost l) - 3)).
Proof.
  intros NS NB H K1 K2 Lm ok. pose proof (total_nonneg cost l cost_nonneg) as T0.
  assert (FR : forall ld rd rule sty, resizes \/ (ld = "" /\ rd = "") -> P 1 rule -> silent (w_frac_args be f ld rd rule sty l st m) (item (64 * (k + total cost l) - 3))).
  { intros ld rd rule sty RS R. eapply silent_weak; [apply (frac_P _ ld rd rule sty _ st m RS H); auto; lia|].
    intros t T. eapply item_mono; [apply fresh_item; [exact T|lia]|lia]. }
  assert (LN : forall sty, silent (w_frac be f sty l st m) (item (64 * (k + total cost l) - 3))).
  { intros sty. unfold w_frac. apply (silent_bind _ _ (P 1)); [|intros th TH; apply FR; auto].
    apply silent_quiet. now apply Hline1. }
  destruct h; cbn [w_macro]; try apply LN.
  - eapply silent_weak; [apply silent_quiet, handle_space_P, ok|]. intros t T. eapply item_mono; [apply kern2_item, T|lia].
  - eapply silent_weak; [apply w_symbol_P, ok|]. intros t T. eapply item_mono; [exact T|lia].
  - eapply silent_weak; [apply silent_quiet, custom_P, ok|]. intros t T. eapply item_mono; [apply kern2_item, T|lia].
  - eapply silent_weak; [apply w_function_P; [exact ok|]|]; [lia|]. intros t T. eapply item_mono; [apply fresh_item; [exact T|lia]|lia].
  - destruct NB as [NB|NB]; [|now elim NB]. apply FR; [now left|]. eapply mono; [apply (b_0 _ _ _ L)|lia].
  - destruct NS as [R|NS]; [|now elim NS]. eapply silent_weak; [apply (sqrt_args_P _ _ st m R H); auto; lia|]. intros t T. eapply item_mono; [apply fresh_item; [exact T|lia]|lia].
  - eapply silent_weak; [apply (overline_args_P _ _ st m H); auto; lia|]. intros t T. eapply item_mono; [apply fresh_item; [exact T|lia]|lia].
Qed.

(** The macros admitted. *)
Fixpoint allowed (n : node) : Prop :=
  match n with
  | NMacro nm l =>
    match nm with Some (_, name) => (roots \/ name <> "\sqrt") /\ (resizes \/ name <> "\binom") | None => True end /\
    fold_right (fun x p => allowed x /\ p) True l
  | NMath _ _ l _ | NList l | NArg _ l _ | NOptArg _ l _ => fold_right (fun x p => allowed x /\ p) True l
  | NSub _ x | NSup _ x => allowed x
  | _ => True
  end.
Lemma allowed_list l : fold_right (fun x p => allowed x /\ p) True l <-> Forall allowed l.
Proof. induction l as [|x l IH]; cbn; split; intros H; auto; [destruct H; constructor; tauto|inversion H; subst; tauto]. Qed.
Notation wgo := (w_go range be parse_float expr).
Definition goes (n : node) : Prop :=
  allowed n -> (forall w, walked (wgo w) n) /\
  match n with NArg _ l _ | NOptArg _ l _ => Forall (walked (wgo true)) l | _ => True end.
Lemma goes_all l w : Forall goes l -> Forall allowed l -> Forall (walked (wgo w)) l.
Proof. induction 1 as [|x l G _ IH]; intros R; constructor; inversion R; subst; [now apply G|now apply IH]. Qed.
Lemma go_P n : goes n.
Proof.
  induction n as [|l IH|nm l IH|a l b IH|a l b IH|p t|d a l b IH|p t|p t|p t|p x IH|p x IH] using node_ind'; intros R; cbn [allowed] in R;
    try (apply allowed_list in R); (split; [intros w K v V Lm; cbn [w_go cost] in *|try exact I; try now apply goes_all]); try apply silent_panic.
  - destruct w; [apply silent_panic|]. apply silent_ret. now replace (K + 64 * 0)%Z with K by lia.
  - pose proof (total_nonneg cost l cost_nonneg). destruct w.
    + eapply silent_weak; [apply (fold_P _ _ (goes_all l true IH R) K v V); lia|]. intros v' (V1 & V2). split; [eapply pushed_mono; [exact V1|lia]|exact V2].
    + apply silent_ret. destruct V as (V1 & V2). split; [eapply pushed_mono; [exact V1|lia]|exact V2].
  - destruct nm as [[p name]|]; [|apply silent_panic]. destruct R as ((R1 & R3) & R). apply allowed_list in R.
    pose proof (total_nonneg cost l cost_nonneg). pose proof (vis_pos _ _ V).
    apply (silent_bind _ _ (fun h => match h with Some h => (roots \/ h <> HSqrt) /\ (resizes \/ h <> HBinom) | None => True end)).
    { apply silent_quiet, gives_lift. intros h Q. destruct h as [h|]; [|exact I]. split; [destruct R1 as [R1|R1]; [now left|right; eapply handler_sqrt; eauto]|destruct R3 as [R3|R3]; [now left|right; eapply handler_binom; eauto]]. }
    intros [h|] Hh; [|apply silent_panic]. destruct V as (V1 & V2). destruct Hh as [Hh Hb].
    eapply silent_bind; [apply (macro_P (wgo true) h p name l (v_state v) (v_math v) (Z.max 2 (zlen name))); auto; try lia|].
    { unfold inner_walked. clear -IH R. induction IH as [|x l G _ IHl]; inversion R as [|? ? Rx Rl]; subst; constructor; [|now apply IHl].
      destruct (G Rx) as [_ Q]. destruct x; auto. }
    intros t T. apply silent_ret. eapply vis_push; [split; [exact V1|exact V2]|exact T|lia].
  - pose proof (total_nonneg cost l cost_nonneg). destruct V as (V1 & V2).
    eapply silent_bind; [apply (fold_P _ _ (goes_all l false IH R) K); [split; [exact V1|exact V2]|lia]|].
    intros v' (U1 & U2). apply silent_ret. split; [eapply pushed_mono; [exact U1|lia]|]. exact U2.
  - pose proof (vis_pos _ _ V). assert (0 <= zlen t)%Z by (unfold zlen; lia). eapply silent_bind; [apply silent_quiet, new_chars_P; apply V|]. intros l Q.
    eapply silent_bind; [apply w_hlist_P; [exact Q|lia]|]. intros x X. apply silent_ret. eapply vis_push; [exact V|apply fresh_item; [exact X|lia]|lia].
  - assert (G : forall l K v, vis K v -> (K + 64 * Z.of_nat (List.length l) <= LIM)%Z ->
      silent (w_fold (fun x v => t <-- w_symbol range be expr x 0 (v_state v) (v_math v) ;; wret (push t v)) l v) (vis (K + 64 * Z.of_nat (List.length l)))).
    { induction l as [|x l IHl]; intros K' v' V' Lm'; cbn [w_fold].
      - apply silent_ret. cbn [List.length Z.of_nat]. now replace (K' + 64 * 0)%Z with K' by lia.
      - cbn [List.length] in *. apply (silent_bind _ _ (vis (K' + 64))).
        + eapply silent_bind; [apply w_symbol_P; apply V'|]. intros y Y. apply silent_ret. eapply vis_push; [exact V'|exact Y|lia].
        + intros v2 V2'. eapply silent_weak; [apply (IHl _ _ V2'); lia|]. intros v3. now replace (K' + 64 + 64 * Z.of_nat (List.length l))%Z with (K' + 64 * Z.of_nat (Datatypes.S (List.length l)))%Z by lia. }
    assert (C : (Z.of_nat (List.length (rune_strings t)) <= zlen t)%Z).
    { pose proof (chars_fuel_count (String.length t) t) as C. unfold rune_strings, zlen, chars. rewrite map_length. lia. }
    eapply silent_weak; [apply (G _ K v V); lia|]. intros v' (V1 & V2). split; [eapply pushed_mono; [exact V1|lia]|exact V2].
  - assert (0 <= zlen t)%Z by (unfold zlen; lia). destruct (v_math v).
    + apply (silent_bind _ _ (fun _ => True)); [apply silent_quiet, gives_lift; auto|]. intros [h|] _; [|apply silent_panic].
      apply (silent_bind _ _ (item 20)).
      * destruct h; cbn [w_sym]; try apply silent_panic; [|apply w_symbol_P; apply V].
        eapply silent_weak; [apply silent_quiet, handle_space_P; apply V|]. intros x X. eapply item_mono; [apply kern2_item, X|lia].
      * intros x X. apply silent_ret. eapply vis_push; [exact V|exact X|lia].
    + eapply silent_bind; [apply silent_quiet, new_char_P; [apply Hat; exact (proj2 (proj1 (proj2 V)))|exact (proj2 (proj2 V))]|]. intros c (X & _). apply silent_ret. eapply vis_push; [exact V|exact X|lia].
Qed.
Lemma typeset_P l : Forall allowed l -> (64 * total cost l + 500 <= LIM)%Z -> silent (w_typeset range be parse_float expr l size dpi) (fresh (64 * total cost l + 64)).
Proof.
  intros R Lm. unfold w_typeset. pose proof (total_nonneg cost l cost_nonneg).
  assert (G : goes (NList l)) by apply go_P. destruct (G (proj2 (allowed_list l) R)) as [G1 _].
  apply (silent_bind _ _ (vis (0 + 64 * cost (NList l)))).
  - apply G1; [split; [apply pushed_nil|]; now split|]. cbn [cost]. lia.
  - intros v (V & _). cbn [cost] in V. apply w_hlist_P; [eapply pushed_mono; [exact V|lia]|lia].
Qed.
End Quiet.
