(** fmt's %q verb for strings (strconv.Quote, standard library) on bytes: exact
    for ASCII strings.  Simplification: bytes >= 128 are always written \xNN,
    as Go does when they are not part of a valid UTF-8 sequence. *)
From Coq Require Import ZArith NArith String Ascii List Bool Lia.
From Verif Require Import Utf8 Utf8Facts Ast AstSpec.
Import ListNotations.
Local Open Scope string_scope.
Local Open Scope Z_scope.

Definition hexdigit (d : Z) : ascii := zascii (if d <? 10 then 48 + d else 87 + d).

(** strconv appendEscapedRune *)
Definition quote_byte (a : ascii) : string :=
  let b := byte a in
  if (b =? 34) || (b =? 92) then String "\" (String a "")
  else if in_range 32 126 b then String a ""
  else if b =? 7 then "\a" else if b =? 8 then "\b" else if b =? 12 then "\f"
  else if b =? 10 then "\n" else if b =? 13 then "\r" else if b =? 9 then "\t"
  else if b =? 11 then "\v"
  else String "\" (String "x" (String (hexdigit (b / 16)) (String (hexdigit (b mod 16)) ""))).

Fixpoint quote_bytes (s : string) : string :=
  match s with "" => "" | String a s' => append (quote_byte a) (quote_bytes s') end.

Definition go_quote (s : string) : string := append """" (append (quote_bytes s) """").

(** All 256 bytes. *)
Definition all_bytes : list ascii := map (fun n => ascii_of_nat n) (seq 0 256).

Lemma all_bytes_complete a : In a all_bytes.
Proof.
  unfold all_bytes. apply in_map_iff. exists (nat_of_ascii a). split; [apply ascii_nat_embedding|].
  apply in_seq. split; [lia|]. cbn [plus]. apply nat_ascii_bounded.
Qed.

Lemma prefix_app x r y s : append x r = append y s -> prefix x y = true \/ prefix y x = true.
Proof.
  revert y; induction x as [|a x IH]; intros [|b y] E; cbn in *; auto.
  injection E as <- E. destruct (ascii_dec a a); [auto|congruence].
Qed.

Lemma quote_prefix_free :
  forallb (fun a => negb (prefix """" (quote_byte a)) && negb (String.eqb (quote_byte a) "") &&
    forallb (fun b => Ascii.eqb a b || negb (prefix (quote_byte a) (quote_byte b))) all_bytes) all_bytes = true.
Proof. vm_compute. reflexivity. Qed.

Lemma quote_byte_inj a b r s :
  append (quote_byte a) r = append (quote_byte b) s -> a = b /\ r = s.
Proof.
  intros E. pose proof quote_prefix_free as F. rewrite forallb_forall in F.
  assert (G : forall a b, prefix (quote_byte a) (quote_byte b) = true -> a = b).
  { intros x y P. specialize (F x (all_bytes_complete x)).
    apply andb_true_iff in F as [_ F]. rewrite forallb_forall in F. specialize (F y (all_bytes_complete y)).
    rewrite P in F. apply orb_true_iff in F as [F|F]; [now apply Ascii.eqb_eq in F|discriminate]. }
  assert (ab : a = b) by (apply prefix_app in E as [P|P]; [|symmetry]; now apply G).
  split; [assumption|]. subst b. revert E. generalize (quote_byte a) as q.
  induction q; cbn; intros E; [assumption|]. injection E; auto.
Qed.

Lemma quote_byte_first a r s : append (quote_byte a) r <> String """" s.
Proof.
  pose proof quote_prefix_free as F. rewrite forallb_forall in F.
  specialize (F a (all_bytes_complete a)). apply andb_true_iff in F as [F _].
  apply andb_true_iff in F as [F1 F2].
  destruct (quote_byte a) as [|c q]; [discriminate F2|]. cbn in F1 |- *. intros E. injection E as -> _.
  destruct (ascii_dec """" """"); [|congruence]. destruct q; discriminate F1.
Qed.

Lemma go_quote_self_delimiting : self_delimiting go_quote.
Proof.
  intros a b r s. unfold go_quote. cbn [append]. intros E. injection E as E. revert b E.
  induction a as [|x a IH]; intros [|y b] E; cbn [quote_bytes append] in E.
  - injection E as ->. auto.
  - rewrite !sapp_assoc in E. symmetry in E. now apply quote_byte_first in E.
  - rewrite !sapp_assoc in E. now apply quote_byte_first in E.
  - rewrite !sapp_assoc in E. apply quote_byte_inj in E as [-> E].
    rewrite <- !sapp_assoc in E. destruct (IH b E) as [-> ->]. auto.
Qed.
