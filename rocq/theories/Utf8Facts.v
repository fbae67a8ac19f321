(** Facts about UTF-8 decoding. *)
From Coq Require Import ZArith String Ascii List Bool Lia ZifyBool.
From Verif Require Import Utf8.
Import ListNotations.
Local Open Scope Z_scope.

Ltac zdm := Z.to_euclidean_division_equations; lia.

(** Destruct the scrutinee of the next match/if in hypothesis [H]. *)
Ltac dmatch H :=
  match type of H with
  | context [match ?x with _ => _ end] =>
    match x with
    | context [match _ with _ => _ end] => fail 1
    | _ => let E := fresh "E" in destruct x eqn:E
    end
  end.
Ltac dgoal :=
  match goal with
  | |- context [match ?x with _ => _ end] =>
    match x with
    | context [match _ with _ => _ end] => fail 1
    | _ => let E := fresh "E" in destruct x eqn:E
    end
  end.

Lemma sapp_assoc (a b c : string) : append (append a b) c = append a (append b c).
Proof. induction a as [|x a IH]; cbn; [reflexivity|]. now rewrite IH. Qed.

Lemma sapp_nil_r (a : string) : append a "" = a.
Proof. induction a as [|x a IH]; cbn; [reflexivity|]. now rewrite IH. Qed.

Lemma sapp_length (a b : string) :
  String.length (append a b) = (String.length a + String.length b)%nat.
Proof. induction a as [|x a IH]; cbn; [reflexivity|]. now rewrite IH. Qed.

Lemma zlen_app a b : zlen (append a b) = zlen a + zlen b.
Proof. unfold zlen. rewrite sapp_length. lia. Qed.

Lemma zlen_nonneg a : 0 <= zlen a.
Proof. unfold zlen; lia. Qed.

Lemma zlen_0 a : zlen a = 0 -> a = EmptyString.
Proof. unfold zlen; destruct a; cbn; [reflexivity|lia]. Qed.

Lemma zlen_pos a : a <> EmptyString -> 0 < zlen a.
Proof. unfold zlen; destruct a; cbn; [congruence|lia]. Qed.

Lemma raw_of_app l1 l2 : raw_of (l1 ++ l2) = append (raw_of l1) (raw_of l2).
Proof.
  induction l1 as [|c l IH]; cbn; [reflexivity|]. now rewrite IH, sapp_assoc.
Qed.

Lemma stake_sdrop n s : append (stake n s) (sdrop n s) = s.
Proof.
  revert s; induction n as [|n IH]; intros [|a s]; cbn; try reflexivity.
  now rewrite IH.
Qed.

Lemma sdrop_length n s : String.length (sdrop n s) = (String.length s - n)%nat.
Proof.
  revert s; induction n as [|n IH]; intros [|a s]; cbn; try reflexivity. apply IH.
Qed.

Lemma stake_length n s : (n <= String.length s)%nat -> String.length (stake n s) = n.
Proof.
  revert s; induction n as [|n IH]; intros [|a s]; cbn; try reflexivity; try lia.
  intros H. rewrite IH; lia.
Qed.

Lemma stake_app s t : stake (String.length s) (append s t) = s.
Proof. induction s as [|a s IH]; cbn; [destruct t; reflexivity|]. now rewrite IH. Qed.

Lemma sdrop_app s t : sdrop (String.length s) (append s t) = t.
Proof. induction s as [|a s IH]; cbn; [destruct t; reflexivity|]. exact IH. Qed.

Lemma byte_range a : 0 <= byte a < 256.
Proof.
  unfold byte. pose proof (N_ascii_bounded a). lia.
Qed.

Lemma byte_zascii z : 0 <= z < 256 -> byte (zascii z) = z.
Proof.
  intros H. unfold byte, zascii. rewrite N_ascii_embedding by lia. lia.
Qed.

Lemma zascii_byte a : zascii (byte a) = a.
Proof.
  unfold byte, zascii. rewrite N2Z.id. apply ascii_N_embedding.
Qed.

Ltac bytes :=
  repeat match goal with
  | a : ascii |- _ =>
    lazymatch goal with
    | H : 0 <= byte a < 256 |- _ => fail
    | _ => pose proof (byte_range a)
    end
  end.

(** DecodeRune consumes between 1 and all bytes, and an ASCII rune is its own
    encoding. *)
Lemma decode_rune_width s :
  s <> EmptyString ->
  (1 <= snd (decode_rune s))%nat /\ (snd (decode_rune s) <= String.length s)%nat.
Proof.
  destruct s as [|a0 s1]; [congruence|]; intros _.
  unfold decode_rune.
  repeat dgoal; cbn [fst snd String.length]; split; lia.
Qed.

Lemma decode_rune_nonneg s : 0 <= fst (decode_rune s).
Proof.
  unfold decode_rune, accept2, cont, in_range, RuneError.
  destruct s as [|a0 s1]; cbn [fst]; [lia|]. bytes.
  repeat dgoal; cbn [fst]; bytes; lia.
Qed.

Lemma decode_rune_ascii s :
  s <> EmptyString -> fst (decode_rune s) < 128 ->
  stake (snd (decode_rune s)) s = String (zascii (fst (decode_rune s))) EmptyString.
Proof.
  destruct s as [|a0 s1]; [congruence|]; intros _.
  unfold decode_rune, accept2, cont, in_range, RuneError.
  repeat dgoal; cbn [fst snd stake]; bytes; intros Hlt; try lia.
  destruct s1; rewrite zascii_byte; reflexivity.
Qed.

Lemma decode_rune_high s :
  128 <= fst (decode_rune s) ->
  match stake (snd (decode_rune s)) s with
  | EmptyString => True | String a _ => 128 <= byte a end.
Proof.
  destruct s as [|a0 s1]; [cbn; auto|].
  unfold decode_rune.
  destruct (byte a0 <? 128) eqn:E0; cbn [fst snd stake]; intros H; [lia|].
  repeat dgoal; cbn [fst snd stake] in *; try lia;
    repeat match goal with H : String _ _ = String _ _ |- _ => injection H as ? ?; subst end; lia.
Qed.

(** Well-formed characters, as produced by [chars]. *)
Definition wf_chr (c : chr) : Prop :=
  c_raw c <> EmptyString /\ 0 <= c_rune c /\
  (c_rune c < 128 -> c_raw c = String (zascii (c_rune c)) EmptyString) /\
  (128 <= c_rune c -> match c_raw c with EmptyString => True | String a _ => 128 <= byte a end).

Lemma chars_fuel_spec n s :
  (String.length s <= n)%nat ->
  raw_of (chars_fuel n s) = s /\ Forall wf_chr (chars_fuel n s).
Proof.
  revert s; induction n as [|n IH]; intros s Hn.
  - destruct s; [split; [reflexivity|constructor]|cbn in Hn; lia].
  - destruct s as [|a s]; [split; [reflexivity|constructor]|].
    cbn [chars_fuel].
    set (s0 := String a s) in *.
    assert (Hne : s0 <> EmptyString) by discriminate.
    pose proof (decode_rune_width s0 Hne) as [W1 W2].
    pose proof (decode_rune_ascii s0 Hne) as WA.
    pose proof (decode_rune_nonneg s0) as WN.
    pose proof (decode_rune_high s0) as WH.
    destruct (decode_rune s0) as [r w] eqn:E; cbn [fst snd] in *.
    assert (Hl : (String.length (sdrop w s0) <= n)%nat) by (rewrite sdrop_length; lia).
    specialize (IH _ Hl) as [IH1 IH2].
    split.
    + cbn [raw_of c_raw]. rewrite IH1. apply stake_sdrop.
    + constructor; [|exact IH2].
      unfold wf_chr; cbn [c_raw c_rune]. repeat split; auto.
      intros Hs. pose proof (stake_length w s0 W2) as Hx. rewrite Hs in Hx. cbn in Hx. lia.
Qed.

(** The characters of a string are read from exactly its bytes. *)
Lemma chars_raw s : raw_of (chars s) = s.
Proof. apply chars_fuel_spec. reflexivity. Qed.

Lemma chars_wf s : Forall wf_chr (chars s).
Proof. apply chars_fuel_spec. reflexivity. Qed.

Lemma chars_fuel_more n m s :
  (String.length s <= n)%nat -> (String.length s <= m)%nat ->
  chars_fuel n s = chars_fuel m s.
Proof.
  revert m s; induction n as [|n IH]; intros m s Hn Hm.
  - destruct s; [|cbn in Hn; lia]. destruct m; reflexivity.
  - destruct s as [|a s]; [destruct m; reflexivity|].
    destruct m as [|m]; [cbn in Hm; lia|].
    cbn [chars_fuel]. set (s0 := String a s) in *.
    assert (Hne : s0 <> EmptyString) by discriminate.
    pose proof (decode_rune_width s0 Hne) as [W1 W2].
    destruct (decode_rune s0) as [r w]; cbn [fst snd] in *.
    f_equal. apply IH; rewrite sdrop_length; lia.
Qed.

Lemma chars_step s :
  s <> EmptyString ->
  chars s = mk_chr (fst (decode_rune s)) (stake (snd (decode_rune s)) s)
            :: chars (sdrop (snd (decode_rune s)) s).
Proof.
  intros Hne. unfold chars at 1.
  destruct s as [|a s]; [congruence|].
  cbn [String.length chars_fuel].
  pose proof (decode_rune_width _ Hne) as [W1 W2].
  destruct (decode_rune (String a s)) as [r w] eqn:E; cbn [fst snd] in *.
  f_equal. apply chars_fuel_more; rewrite ?sdrop_length; cbn [String.length] in *; lia.
Qed.

(** The first byte of a character. *)
Lemma wf_chr_first c : wf_chr c ->
  exists a t, c_raw c = String a t /\
    ((c_rune c < 128 /\ byte a = c_rune c /\ t = EmptyString) \/ (128 <= c_rune c /\ 128 <= byte a)).
Proof.
  intros (H1 & H2 & H3 & H4). destruct (c_raw c) as [|a t]; [congruence|].
  exists a, t. split; [reflexivity|].
  destruct (Z.lt_ge_cases (c_rune c) 128) as [L|L].
  - specialize (H3 L). injection H3 as -> ->. left. rewrite byte_zascii by lia. auto.
  - right. auto.
Qed.

(** Encoding then decoding is the identity on valid runes. *)
Lemma decode_encode_app r s :
  valid_rune r = true ->
  decode_rune (append (encode_valid r) s) = (r, String.length (encode_valid r)).
Proof.
  unfold valid_rune. intros H.
  assert (Hr : 0 <= r <= 1114111 /\ ~ (55296 <= r <= 57343)) by (unfold in_range in H; lia).
  clear H. unfold encode_valid.
  destruct (r <? 128) eqn:E1.
  { cbn [append decode_rune String.length]. rewrite byte_zascii by lia. rewrite E1. reflexivity. }
  destruct (r <? 2048) eqn:E2.
  { cbn [append decode_rune String.length].
    rewrite !byte_zascii by zdm.
    replace (192 + r / 64 <? 128) with false by (symmetry; apply Z.ltb_ge; zdm).
    replace (in_range 194 223 (192 + r / 64)) with true
      by (symmetry; unfold in_range; apply andb_true_iff; split; apply Z.leb_le; zdm).
    unfold accept2.
    repeat match goal with |- context [?a =? ?b] =>
      replace (a =? b) with false by (symmetry; apply Z.eqb_neq; zdm) end.
    replace (in_range 128 191 (128 + r mod 64)) with true
      by (symmetry; unfold in_range; apply andb_true_iff; split; apply Z.leb_le; zdm).
    f_equal; zdm. }
  destruct (r <? 65536) eqn:E3.
  { cbn [append decode_rune String.length].
    rewrite !byte_zascii by zdm.
    replace (224 + r / 4096 <? 128) with false by (symmetry; apply Z.ltb_ge; zdm).
    replace (in_range 194 223 (224 + r / 4096)) with false
      by (symmetry; unfold in_range; apply andb_false_iff; right; apply Z.leb_gt; zdm).
    replace (in_range 224 239 (224 + r / 4096)) with true
      by (symmetry; unfold in_range; apply andb_true_iff; split; apply Z.leb_le; zdm).
    assert (A : accept2 (224 + r / 4096) (128 + r / 64 mod 64) = true).
    { unfold accept2, in_range.
      destruct (224 + r / 4096 =? 224) eqn:G1; [apply andb_true_iff; split; apply Z.leb_le; zdm|].
      destruct (224 + r / 4096 =? 237) eqn:G2; [apply andb_true_iff; split; apply Z.leb_le; zdm|].
      replace (224 + r / 4096 =? 240) with false by (symmetry; apply Z.eqb_neq; zdm).
      replace (224 + r / 4096 =? 244) with false by (symmetry; apply Z.eqb_neq; zdm).
      apply andb_true_iff; split; apply Z.leb_le; zdm. }
    rewrite A. cbn [andb]. unfold cont. rewrite byte_zascii by zdm.
    replace (in_range 128 191 (128 + r mod 64)) with true
      by (symmetry; unfold in_range; apply andb_true_iff; split; apply Z.leb_le; zdm).
    f_equal; zdm. }
  { cbn [append decode_rune String.length].
    rewrite !byte_zascii by zdm.
    replace (240 + r / 262144 <? 128) with false by (symmetry; apply Z.ltb_ge; zdm).
    replace (in_range 194 223 (240 + r / 262144)) with false
      by (symmetry; unfold in_range; apply andb_false_iff; right; apply Z.leb_gt; zdm).
    replace (in_range 224 239 (240 + r / 262144)) with false
      by (symmetry; unfold in_range; apply andb_false_iff; right; apply Z.leb_gt; zdm).
    replace (in_range 240 244 (240 + r / 262144)) with true
      by (symmetry; unfold in_range; apply andb_true_iff; split; apply Z.leb_le; zdm).
    assert (A : accept2 (240 + r / 262144) (128 + r / 4096 mod 64) = true).
    { unfold accept2, in_range.
      replace (240 + r / 262144 =? 224) with false by (symmetry; apply Z.eqb_neq; zdm).
      replace (240 + r / 262144 =? 237) with false by (symmetry; apply Z.eqb_neq; zdm).
      destruct (240 + r / 262144 =? 240) eqn:G1; [apply andb_true_iff; split; apply Z.leb_le; zdm|].
      destruct (240 + r / 262144 =? 244) eqn:G2; [apply andb_true_iff; split; apply Z.leb_le; zdm|].
      apply andb_true_iff; split; apply Z.leb_le; zdm. }
    rewrite A. cbn [andb]. unfold cont. rewrite !byte_zascii by zdm.
    replace (in_range 128 191 (128 + (r / 64) mod 64)) with true
      by (symmetry; unfold in_range; apply andb_true_iff; split; apply Z.leb_le; zdm).
    replace (in_range 128 191 (128 + r mod 64)) with true
      by (symmetry; unfold in_range; apply andb_true_iff; split; apply Z.leb_le; zdm).
    cbn [andb]. f_equal; zdm. }
Qed.

Lemma encode_valid_ne r : encode_valid r <> EmptyString.
Proof. unfold encode_valid. repeat dgoal; discriminate. Qed.

Lemma chars_encode_app r s :
  valid_rune r = true ->
  chars (append (encode_valid r) s) = mk_chr r (encode_valid r) :: chars s.
Proof.
  intros H. rewrite chars_step.
  - rewrite decode_encode_app by assumption. cbn [fst snd].
    now rewrite stake_app, sdrop_app.
  - pose proof (encode_valid_ne r). destruct (encode_valid r); [congruence|discriminate].
Qed.

(** The characters of a string of encoded runes are these runes. *)
Fixpoint encode_runes (l : list Z) : string :=
  match l with [] => EmptyString | r :: l' => append (encode_valid r) (encode_runes l') end.

Lemma chars_encode_runes l s :
  forallb valid_rune l = true ->
  chars (append (encode_runes l) s)
  = (map (fun r => mk_chr r (encode_valid r)) l ++ chars s)%list.
Proof.
  induction l as [|r l IH]; cbn [forallb encode_runes map app]; intros H; [reflexivity|].
  apply andb_true_iff in H as [H1 H2].
  rewrite sapp_assoc, chars_encode_app by assumption. now rewrite IH.
Qed.

(** ASCII characters. *)
Lemma chars_ascii a s :
  byte a < 128 -> chars (String a s) = mk_chr (byte a) (String a "") :: chars s.
Proof.
  intros H. rewrite chars_step by discriminate.
  assert (D : decode_rune (String a s) = (byte a, 1%nat)).
  { unfold decode_rune. replace (byte a <? 128) with true by lia. reflexivity. }
  rewrite D. cbn [fst snd stake sdrop]. destruct s; reflexivity.
Qed.
