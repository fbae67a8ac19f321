(** Metrics of the TrueType backend in exact arithmetic. *)
From Coq Require Import ZArith String Ascii List Bool Lia QArith Qcanon Qfield Lqa Field.
From Verif Require Import Utf8 Utf8Facts Parser Symbols Arith Exact OrderLaws Box Ttf TtfSpec TtfFacts.
Import ListNotations.
Local Open Scope string_scope.
Local Open Scope list_scope.
Local Open Scope Z_scope.

Definition zq (k : Z) : Qc := Q2Qc (inject_Z k).
Lemma ofZ_fin k : fofZ exact k = Fin (zq k). Proof. reflexivity. Qed.
Lemma zq_nz k : k <> 0 -> zq k <> 0%Qc.
Proof.
  intros N E. apply N. assert (E' : (this (zq k) == 0)%Q) by (rewrite E; reflexivity).
  unfold zq, Q2Qc in E'. cbn [this] in E'. rewrite Qred_correct in E'. unfold Qeq in E'. cbn in E'. lia.
Qed.
Lemma div_fin a k : k <> 0 -> fdiv exact (Fin a) (fofZ exact k) = Fin (a / zq k)%Qc.
Proof.
  intros N. cbn. fold (zq k). destruct (qeqb (zq k) 0%Qc) eqn:E; [|reflexivity].
  apply qeqb_iff in E. now apply zq_nz in E.
Qed.
Lemma div_fin' a k : k <> 0 -> fdiv exact (Fin a) (Fin (zq k)) = Fin (a / zq k)%Qc.
Proof. exact (div_fin a k). Qed.
Lemma mul_fin a b : fmul exact (Fin a) (Fin b) = Fin (a * b)%Qc. Proof. reflexivity. Qed.
Lemma add_fin a b : fadd exact (Fin a) (Fin b) = Fin (a + b)%Qc. Proof. reflexivity. Qed.
Lemma sub_fin a b : fsub exact (Fin a) (Fin b) = Fin (a - b)%Qc. Proof. reflexivity. Qed.
Lemma opp_fin a : fopp exact (Fin a) = Fin (- a)%Qc. Proof. reflexivity. Qed.

Ltac fins := rewrite ?ofZ_fin; repeat (rewrite ?mul_fin, ?add_fin, ?sub_fin, ?opp_fin; rewrite ?div_fin by lia).

Lemma key_eq_exact (k k' : @key exact) : key_eqb k k' = true -> k = k'.
Proof.
  unfold key_eqb, font_eqb. rewrite !andb_true_iff, !String.eqb_eq. cbn [feqb exact].
  intros ((H1 & (H2 & H3) & H4) & H5). apply xeqb_eq in H4, H5.
  destruct k as [s [n t z] d], k' as [s' [n' t' z'] d']. cbn in *. now subst.
Qed.

(** The numbers of a glyph: everything is a multiple of the font size. *)
Record glyph_nums : Type := mk_nums {
  n_adv : Qc; n_xmin : Qc; n_xmax : Qc; n_ymin : Qc; n_ymax : Qc; n_offs : Qc -> Qc; n_slanted : bool }.
Definition nums_metrics (n : glyph_nums) (s d : Qc) : @metrics exact :=
  mk_metrics (A:=exact) (Fin (s * n_adv n)) (Fin (s * (n_ymax n - n_ymin n))) (Fin (s * (n_xmax n - n_xmin n)))
    (Fin (s * n_xmin n)) (Fin (s * n_xmax n)) (Fin (s * (n_ymin n + n_offs n d))) (Fin (s * (n_ymax n + n_offs n d)))
    (Fin (s * (n_ymax n + n_offs n d))) (n_slanted n).

Lemma metrics_eq (a b c d e f g h a' b' c' d' e' f' g' h' : xq) (s : bool) :
  a = a' -> b = b' -> c = c' -> d = d' -> e = e' -> f = f' -> g = g' -> h = h' ->
  mk_metrics (A:=exact) a b c d e f g h s = mk_metrics (A:=exact) a' b' c' d' e' f' g' h' s.
Proof. intros. subst. reflexivity. Qed.
Lemma val_eq {Fnt} (f : option Fnt) (s : xq) ps m m' name rn idx (off off' : xq) : m = m' -> off = off' ->
  mk_val (A:=exact) f s ps m name rn idx off = mk_val (A:=exact) f s ps m' name rn idx off'.
Proof. intros. subst. reflexivity. Qed.

Lemma glyph_val_nums {Fnt} (sf : @sfnt exact Fnt) fnts sym nm ty m :
  (exists n f ps name rn idx off, forall s d,
     glyph_val sf fnts sym (mk_font nm ty (Fin s)) (Fin d) m =
       LOk (mk_val f (Fin s) ps (nums_metrics n s d) name rn idx (off s d))) \/
  (exists e, forall s d, glyph_val sf fnts sym (mk_font nm ty (Fin s)) (Fin d) m = LPanic e).
Proof.
  unfold glyph_val, get_glyph. cbn [f_type f_size].
  destruct (index sym m) as [r|]; cbn [need lbind]; [|right; eexists; reflexivity].
  destruct (get_font fnts _) as [f|]; cbn [need lbind]; [|right; eexists; reflexivity].
  destruct (sf_name sf f) as [ps|]; cbn [need lbind]; [|right; eexists; reflexivity].
  destruct (sf_index sf f r) as [idx|]; cbn [need lbind]; [|right; eexists; reflexivity].
  destruct (sf_gname sf f idx) as [name|]; cbn [need lbind]; [|right; eexists; reflexivity].
  destruct (sf_load sf f idx (fixed_I _)); cbn [need lbind]; [|right; eexists; reflexivity].
  destruct (sf_advance sf f idx _) as [adv|]; cbn [need lbind]; [|right; eexists; reflexivity].
  destruct (sf_load sf f idx (sf_upem sf f)); cbn [need lbind]; [|right; eexists; reflexivity].
  destruct (sf_bounds sf f idx _) as [[[[x0 y0] x1] y1]|]; cbn [need lbind]; [|right; eexists; reflexivity].
  left.
  set (sl := _ || _ : bool).
  set (k := (fun z => zq z / (zq 12 * zq 64))%Qc).
  set (o := fun d : Qc => if String.eqb ps "Cmex10" then ((k (- y0)%Z - k (- y1)%Z) / zq 2 + d / (zq 3 * zq 72))%Qc else 0%Qc).
  exists (mk_nums (zq adv / (zq 65536 * zq 12))%Qc (k x0) (k x1) (k (- y1)%Z) (k (- y0)%Z) o sl).
  exists (Some f), ps, name, r, idx, (fun s d => Fin (s * o d)).
  assert (N12 : zq 12 <> 0%Qc) by (apply zq_nz; lia). assert (N64 : zq 64 <> 0%Qc) by (apply zq_nz; lia).
  assert (N2 : zq 2 <> 0%Qc) by (apply zq_nz; lia). assert (N3 : zq 3 <> 0%Qc) by (apply zq_nz; lia).
  assert (N72 : zq 72 <> 0%Qc) by (apply zq_nz; lia). assert (N65 : zq 65536 <> 0%Qc) by (apply zq_nz; lia).
  intros s d. unfold nums_metrics. cbn [n_adv n_xmin n_xmax n_ymin n_ymax n_offs n_slanted].
  unfold o, k. rewrite !ofZ_fin.
  destruct (String.eqb ps "Cmex10"); unfold f0; rewrite ?ofZ_fin;
    rewrite ?mul_fin, ?add_fin, ?sub_fin; rewrite ?(div_fin' _ 12), ?(div_fin' _ 65536), ?(div_fin' _ 3) by lia;
    rewrite ?mul_fin; rewrite ?(div_fin' _ 64), ?(div_fin' _ 72), ?(div_fin' _ 12) by lia;
    rewrite ?add_fin, ?sub_fin; rewrite ?(div_fin' _ 2) by lia; rewrite ?add_fin;
    try replace (zq 0) with (Q2Qc 0) by reflexivity;
    apply f_equal; apply val_eq; try apply metrics_eq; apply f_equal; try field; repeat split; auto.
Qed.
