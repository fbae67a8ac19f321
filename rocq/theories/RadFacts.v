(** The boxes of overlines and radicals. *)
From Coq Require Import ZArith String Ascii List Bool Lia.
From Verif Require Import Utf8 Token Lexer Ast Parser Symbols Arith Box Mtex MtexTable MtexSpec FracSpec MtexFacts MtexFacts2 MtexFacts3 MtexFacts4 MtexFacts5 PropMtex.
Import ListNotations.
Local Open Scope string_scope.
Local Open Scope list_scope.
Local Open Scope Z_scope.

Section Rad.
Context {A : arith} {S : Type}.
Variable be : @backend A S.
Notation tnode := (@Box.tnode A).
Hypothesis Z0 : feqb A f0 f0 = true.

Definition stiff (x : tnode) : Prop := match x with TChar _ | TAccent _ => False | _ => True end.
Lemma kern_stiff l : (forall x, In x l -> stiff x) -> forall s, kern_list be l s = LOk (l, s).
Proof.
  induction l as [|x l IH]; intros H s; [reflexivity|]. cbn [kern_list]. unfold mbind.
  assert (K : kerning be x (hd_error l) s = LOk (f0, s)).
  { pose proof (H x (or_introl eq_refl)) as Sx. destruct x; try reflexivity; destruct Sx. }
  rewrite K. rewrite IH by (intros; apply H; now right). rewrite Z0. reflexivity.
Qed.
Lemma hlist_stiff l s t s' : (forall x, In x l -> stiff x) -> hlist_of be l true s = LOk (t, s') -> natural_h l t /\ s' = s.
Proof.
  intros H E. unfold hlist_of in E. apply bind_ok in E as (l' & s1 & E1 & E). rewrite kern_stiff in E1 by assumption.
  injection E1 as <- <-. apply ret_ok in E as [-> ->]. split; reflexivity.
Qed.
Lemma vlist_ok l (s : S) t s' : vlist_of l s = LOk (t, s') -> @natural_v A l t /\ s' = s.
Proof.
  unfold vlist_of, natural_v. intros E. destruct (vpack _ _ _ _) as [t0|]; [|discriminate E]. apply ret_ok in E as [-> ->]. auto.
Qed.
Lemma stiff_h (l : list tnode) t : natural_h l t -> stiff t. Proof. intros ->. exact I. Qed.
Lemma stiff_v (l : list tnode) t : natural_v l t -> stiff t.
Proof. unfold natural_v, list_of. cbn [vpack]. destruct (vfold _ _); [|discriminate]. intros [= <-]. exact I. Qed.
Lemma stiff_shift x (t : tnode) : stiff t -> stiff (set_shift x t). Proof. destruct t; auto. Qed.
Lemma stiff_pack h a lim (t t' : tnode) : stiff t -> vpack h a lim t = LOk t' -> stiff t'.
Proof. destruct t; cbn [vpack]; try (intros Hs [= <-]; exact Hs). destruct (vfold _ _); [|discriminate]. intros _ [= <-]. exact I. Qed.
Lemma stiff_shrink (t : tnode) s t' s' : stiff t -> shrink be t s = LOk (t', s') -> stiff t'.
Proof.
  destruct t; cbn [shrink]; intros Hs H; try destruct Hs; try (apply ret_ok in H as [-> _]; exact I).
  apply bind_ok in H as (? & ? & _ & H). apply ret_ok in H as [-> _]. destruct (_ <? _); exact I.
Qed.
Ltac stiffs := intros ? ?; repeat match goal with H : In _ (_ :: _) |- _ => destruct H as [<-|H] | H : In _ [] |- _ => destruct H end;
  try exact I; try assumption; eauto using stiff_h, stiff_v, stiff_shift, stiff_pack.

(** The clearance of parser.go:454 and 504. *)
Definition extra (st : @state A) : Arith.F A := fdiv A (fmul A (f_size (st_font st)) (st_dpi st)) (fofZ A 1200).
Definition thick (st : @state A) : M S (Arith.F A) := be_underline be (st_font st) (st_dpi st).

Lemma overline_ok body st s t s' : fltb A (fopp A f1) f0 = true -> stiff body ->
  overline_box be body st s = LOk (t, s') ->
  exists th s1 rule, thick st s = LOk (th, s1) /\ thick st s1 = LOk (rule, s') /\ overlined body th rule (extra st) t.
Proof.
  intros M1 SB E. unfold overline_box in E. apply bind_ok in E as (th & s1 & E1 & E).
  apply bind_ok in E as (br & s2 & E2 & E). unfold hrule in E2. rewrite M1 in E2.
  apply bind_ok in E2 as (rule & s3 & E3 & E2). apply ret_ok in E2 as [-> ->].
  apply bind_ok in E as (inner & s4 & E4 & E). apply hlist_stiff in E4 as [N1 ->]; [|stiffs].
  apply bind_ok in E as (r0 & s5 & E5 & E). apply vlist_ok in E5 as [N2 ->].
  apply bind_ok in E as (rhs & s6 & E6 & E). unfold mlift in E6. destruct (vpack _ _ _ r0) as [rhs0|] eqn:EV in E6; [|discriminate E6].
  apply ret_ok in E6 as [-> ->]. apply hlist_stiff in E as [N3 ->]; [|stiffs].
  exists th, s1, rule. split; [exact E1|]. split; [exact E3|]. exists inner, rhs0.
  split; [exact N1|]. split; [|exact N3]. exists r0. split; [exact N2|exact EV].
Qed.

Definition index_of (root : option tnode) (check : tnode) (s : S) (r : tnode) (s' : S) : Prop :=
  match root with
  | None => r = hbox (fmul A (t_width check) (frat 1 2)) /\ s' = s
  | Some x => exists x1 s1, shrink be x s = LOk (x1, s1) /\ shrink be x1 s1 = LOk (r, s')
  end.
Lemma sqrt_ok root body st s t s' : fltb A (fopp A f1) f0 = true -> stiff body -> (forall r, root = Some r -> stiff r) ->
  sqrt_box be root body st s = LOk (t, s') ->
  exists th s1 check s2 rule s3 r,
    thick st s = LOk (th, s1) /\
    auto_height_char be "\__sqrt__" (fadd A (above body) (fmul A (fofZ A 5) th)) (beneath body) st f0 s1 = LOk (check, s2) /\
    thick st s2 = LOk (rule, s3) /\ index_of root check s3 r s' /\ radical r body check th rule (extra st) t.
Proof.
  intros M1 SB SR E. unfold sqrt_box in E. apply bind_ok in E as (th & s1 & E1 & E).
  apply bind_ok in E as (check & s2 & E2 & E).
  apply bind_ok in E as (padded & s3 & E3 & E). apply hlist_stiff in E3 as [N1 ->]; [|stiffs].
  apply bind_ok in E as (br & s4 & E4 & E). unfold hrule in E4. rewrite M1 in E4.
  apply bind_ok in E4 as (rule & s5 & E5 & E4). apply ret_ok in E4 as [-> ->].
  apply bind_ok in E as (r0 & s6 & E6 & E). apply vlist_ok in E6 as [N2 ->].
  apply bind_ok in E as (rhs & s7 & E7 & E). unfold mlift in E7. destruct (vpack _ _ _ r0) as [rhs0|] eqn:EV in E7; [|discriminate E7].
  apply ret_ok in E7 as [-> ->].
  apply bind_ok in E as (r & s8 & E8 & E).
  assert (RI : index_of root check s5 r s8 /\ stiff r).
  { destruct root as [x|]; cbn [index_of].
    - apply bind_ok in E8 as (x1 & s9 & E9 & E8). split; [eauto|]. eapply stiff_shrink; [|exact E8]. eapply stiff_shrink; [|exact E9]. now apply SR.
    - apply ret_ok in E8 as [-> ->]. split; [split; reflexivity|exact I]. }
  destruct RI as [RI Sr].
  apply bind_ok in E as (inner & s9 & E9 & E). apply hlist_stiff in E9 as [N3 ->]; [|stiffs].
  apply bind_ok in E as (vl & s10 & E10 & E). apply vlist_ok in E10 as [N4 ->].
  assert (SC : stiff check).
  { apply (auto_ok be Z0) in E2 as (? & ? & ? & ? & ? & -> & _). exact I. }
  apply hlist_stiff in E as [N5 ->]; [|stiffs].
  exists th, s1, check, s2, rule, s5, r. do 4 (split; [assumption|]). exists padded, rhs0, inner, vl.
  split; [exact N1|]. split; [exists r0; split; [exact N2|exact EV]|]. auto.
Qed.
End Rad.
