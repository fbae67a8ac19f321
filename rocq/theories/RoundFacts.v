(** Lexing the pieces of a document. *)
From Coq Require Import ZArith String Ascii List Bool Lia ZifyBool.
From Verif Require Import Utf8 GoScanner Token Lexer Ast Parser Grammar Stream Utf8Facts LexFacts LexText
  ParserFacts GrammarFacts BoundarySpec LexTail LexProps Compose RoundSpec.
Import ListNotations.
Local Open Scope string_scope.
Local Open Scope list_scope.
Local Open Scope Z_scope.

Section WithLetters.
Variable U : Z -> bool.

Definition Good (p : piece) : Prop :=
  let '(k, src, txt) := p in
  src <> "" /\ first_byte_ok src /\ fst (decode_rune src) <> BOM /\ k <> KEOF /\
  (forall o, lex1 U (mk_ls o (chars src)) = LexOk (mk_lx (mk_tok k o txt) [] (chars src) (-1)) (mk_ls (o + zlen src) [])) /\
  (forall c o pk, stops_at U k txt c = true -> tail_ok U (mk_lx (mk_tok k o txt) [] (chars src) pk) c = true).

Definition next_rune (pk : Z) (ps : list piece) : Z :=
  match ps with [] => pk | (_, src, _) :: _ => fst (decode_rune src) end.

(** The lexemes of the pieces from offset [o], followed by the character [pk]. *)
Fixpoint lx_of (o pk : Z) (ps : list piece) : list lexeme :=
  match ps with
  | [] => []
  | (k, src, txt) :: ps' =>
    mk_lx (mk_tok k o txt) [] (chars src) (next_rune pk ps') :: lx_of (o + zlen src) pk ps'
  end.

Lemma join_app a b : join (a ++ b) = append (join a) (join b).
Proof. induction a as [|p a IH]; [reflexivity|]. cbn [join fold_right app]. fold (join (a ++ b)). fold (join a). now rewrite IH, sapp_assoc. Qed.

Lemma zjoin_cons k s t ps : zlen (join ((k, s, t) :: ps : list piece)) = zlen s + zlen (join ps).
Proof. cbn [join fold_right p_src fst snd]. apply zlen_app. Qed.

Lemma next_rune_app pk a b : next_rune pk (a ++ b) = next_rune (next_rune pk b) a.
Proof. now destruct a as [|[[k s] t] a]. Qed.

Lemma lx_of_app o pk a b :
  lx_of o pk (a ++ b) = lx_of o (next_rune pk b) a ++ lx_of (o + zlen (join a)) pk b.
Proof.
  revert o; induction a as [|[[k s] t] a IH]; intros o.
  - cbn [app lx_of]. change (zlen (join [])) with 0. now rewrite Z.add_0_r.
  - cbn [app lx_of]. rewrite next_rune_app, IH.
    rewrite zjoin_cons, Z.add_assoc. reflexivity.
Qed.

Lemma join_first ps : Forall Good ps -> first_byte_ok (join ps) /\ fst (decode_rune (join ps)) <> BOM /\
  peek (chars (join ps)) = next_rune (-1) ps.
Proof.
  induction 1 as [|[[k s] t] ps (Ne & Fb & Nb & _) F (IH1 & IH2 & IH3)].
  - repeat split. discriminate.
  - change (join ((k, s, t) :: ps)) with (append s (join ps)).
    rewrite (decode_rune_app s (join ps) Ne IH1), (chars_app s (join ps) IH1).
    split; [destruct s; [congruence|exact Fb]|]. split; [assumption|].
    destruct (first_rune_chars s Ne) as (l & ->). reflexivity.
Qed.

Lemma lex_pieces ps : Forall Good ps -> apart U ps = true -> forall o,
  Lexes U (mk_ls o (chars (join ps))) (lx_of o (-1) ps) (mk_ls (o + zlen (join ps)) []).
Proof.
  induction 1 as [|[[k s] t] ps G F IH]; intros A o.
  - cbn. rewrite Z.add_0_r. constructor.
  - assert (Ap : apart U ps = true /\
      (join ps <> "" -> stops_at U k t (next_rune (-1) ps) = true)).
    { destruct ps as [|[[k' s'] t'] ps']; [split; [reflexivity|intros X; now destruct X]|].
      cbn [apart] in A. apply andb_true_iff in A as [A1 A2]. split; [exact A2|intros _; exact A1]. }
    destruct Ap as [A' St]. destruct (join_first ps F) as (Fb & _ & Pk).
    destruct G as (Ne & _ & _ & Ke & Lx & Tl).
    rewrite zjoin_cons, Z.add_assoc. cbn [lx_of].
    change (join ((k, s, t) :: ps)) with (append s (join ps)). rewrite (chars_app s (join ps) Fb).
    econstructor; [| |apply IH; assumption].
    + rewrite (lex1_tail U o (chars s) _ _ (chars (join ps)) (chars_wf s) (Lx o)); [|exact Ke|].
      * unfold set_peek. cbn [x_tok x_skip x_raw l_rest l_off app]. rewrite Pk. reflexivity.
      * intros _. destruct (chars (join ps)) as [|c l] eqn:Ec; [exact I|]. apply Tl.
        cbn [peek] in Pk. rewrite Pk. apply St. intros E. rewrite E in Ec. discriminate Ec.
    + exact Ke.
Qed.

(** ** Each kind of piece *)

Lemma chars_digits ds : (forall c, In c (list_ascii_of_string ds) -> 48 <= byte c <= 57) ->
  Forall (fun c => 48 <= c_rune c <= 57) (chars ds) /\ raw_of (chars ds) = ds.
Proof.
  split; [|apply chars_raw]. induction ds as [|a ds IH]; [constructor|].
  assert (Ha : 48 <= byte a <= 57) by (apply H; now left).
  rewrite chars_ascii by lia. constructor; [exact Ha|]. apply IH. intros c I. apply H. now right.
Qed.

Lemma scan_number_digits l : Forall (fun c => 48 <= c_rune c <= 57) l -> l <> [] -> scan_number l = (GInt, l, []).
Proof.
  intros F Ne. destruct l as [|z l]; [congruence|]. inversion F as [|? ? Hz Fl]; subst.
  assert (Sp : forall l, Forall (fun c => 48 <= c_rune c <= 57) l -> span (is_dig false) l = (l, [])).
  { intros l' Fl'. apply span_all; [now rewrite app_nil_r| |exact I]. eapply Forall_impl; [|exact Fl'].
    intros c Hc. cbn in Hc |- *. unfold is_dig, is_decimal, in_range. lia. }
  unfold scan_number. destruct (Z.eqb_spec (c_rune z) 48).
  - destruct l as [|c l]; [reflexivity|]. inversion Fl as [|? ? Hc Fl']; subst.
    replace ((c_rune c =? 120) || (c_rune c =? 88)) with false by lia.
    replace ((c_rune c =? 111) || (c_rune c =? 79) || (c_rune c =? 98) || (c_rune c =? 66)) with false by lia.
    rewrite (Sp (c :: l)) by assumption. reflexivity.
  - rewrite (Sp (z :: l)) by assumption. reflexivity.
Qed.

Lemma good_num ds : num_ok ds -> Good (same KNumber ds).
Proof.
  intros (Ne & H). destruct (chars_digits ds H) as (F & R).
  assert (Fb : match ds with "" => True | String c _ => 48 <= byte c <= 57 end).
  { destruct ds; [exact I|]. apply H. now left. }
  assert (Nc : chars ds <> []) by (intros E; rewrite E in R; cbn in R; congruence).
  split; [assumption|]. split; [destruct ds; cbn; [exact I|lia]|].
  destruct (first_rune_chars ds Ne) as (l & El).
  split; [rewrite El in F; inversion F; subst; cbn [c_rune] in *; unfold BOM; lia|].
  split; [discriminate|]. split.
  - intros o. unfold lex1. cbn [l_rest l_off].
    assert (G : gscan U true (chars ds) = (GInt, [], chars ds, [])).
    { unfold gscan. destruct (chars ds) as [|c cs] eqn:Ec; [congruence|]. cbn [span].
      inversion F as [|? ? Hc Fc]; subst.
      replace (is_ws (c_rune c)) with false by (unfold is_ws; lia). cbv iota.
      replace (is_letter U (c_rune c)) with false
        by (unfold is_letter, is_ascii_letter, in_range; destruct (c_rune c <? 128) eqn:?; lia).
      replace (is_decimal (c_rune c)) with true by (unfold is_decimal, in_range; lia).
      rewrite scan_number_digits; [reflexivity|assumption|discriminate]. }
    rewrite G. change (clen []) with 0. unfold clen. rewrite R, Z.add_0_r. reflexivity.
  - intros c o pk S. unfold tail_ok. change (xk _) with KNumber. cbv iota. cbn [x_raw].
    unfold num_stop. unfold stops_at in S. rewrite S. cbn [andb]. apply orb_true_iff. right.
    destruct (rev (chars ds)) as [|d r] eqn:Er; [reflexivity|].
    assert (Id : In d (chars ds)) by (apply in_rev; rewrite Er; now left).
    rewrite Forall_forall in F. specialize (F d Id). cbn in F. unfold is_exp. lia.
Qed.

Lemma good_word rs : word_ok U rs -> Good (same KWord (encode_runes rs)).
Proof.
  intros (Ne & H).
  assert (V : forallb valid_rune rs = true) by (apply forallb_forall; intros r I; now apply H).
  pose proof (chars_encode_runes rs "" V) as C. rewrite sapp_nil_r in C. change (chars "") with (@nil chr) in C.
  rewrite app_nil_r in C.
  assert (R : raw_of (chars (encode_runes rs)) = encode_runes rs) by apply chars_raw.
  destruct rs as [|r rs]; [congruence|]. destruct (H r (or_introl eq_refl)) as (Vr & Lr & Br).
  assert (Se : encode_runes (r :: rs) <> "").
  { cbn. intros E. pose proof (encode_valid_ne r). destruct (encode_valid r); [congruence|discriminate E]. }
  assert (D : fst (decode_rune (encode_runes (r :: rs))) = r).
  { cbn [encode_runes]. now rewrite decode_encode_app. }
  split; [exact Se|]. split; [|split; [rewrite D; exact Br|split; [discriminate|]]].
  - cbn [encode_runes]. unfold valid_rune, in_range in Vr. unfold encode_valid.
    destruct (r <? 128) eqn:E1; [cbn; rewrite byte_zascii; lia|].
    destruct (r <? 2048) eqn:E2.
    { assert (0 <= r / 64 < 32) by (split; [apply Z.div_pos|apply Z.div_lt_upper_bound]; lia).
      cbn [append first_byte_ok]. rewrite byte_zascii; lia. }
    destruct (r <? 65536) eqn:E3.
    { assert (0 <= r / 4096 < 16) by (split; [apply Z.div_pos|apply Z.div_lt_upper_bound]; lia).
      cbn [append first_byte_ok]. rewrite byte_zascii; lia. }
    assert (0 <= r / 262144 < 5) by (split; [apply Z.div_pos|apply Z.div_lt_upper_bound]; lia).
    cbn [append first_byte_ok]. rewrite byte_zascii; lia.
  - split.
    + intros o. unfold lex1. cbn [l_rest l_off].
      assert (G : gscan U true (chars (encode_runes (r :: rs))) = (GIdent, [], chars (encode_runes (r :: rs)), [])).
      { rewrite C. cbn [map]. unfold gscan. cbn [span c_rune].
        assert (W : is_ws r = false).
        { unfold is_ws. destruct (Z.eqb_spec r 9), (Z.eqb_spec r 10), (Z.eqb_spec r 13); subst; try discriminate Lr; reflexivity. }
        rewrite W. cbv iota beta. cbn [c_rune]. rewrite Lr.
        rewrite (span_all (is_letter U) _ (map (fun r => mk_chr r (encode_valid r)) rs) []);
          [reflexivity|now rewrite app_nil_r| |exact I].
        apply Forall_forall. intros c I. apply in_map_iff in I as (q & <- & I). cbn. apply H. now right. }
      rewrite G. change (clen []) with 0. unfold clen. rewrite R, Z.add_0_r. reflexivity.
    + intros c o pk S. exact S.
Qed.

Ltac fixed := split; [discriminate|]; split; [cbn; lia|]; split; [vm_compute; discriminate|]; split; [discriminate|];
  split; [intros o; destruct o; reflexivity|intros c o pk S; exact S || reflexivity].

Lemma good_sym c : sym_ok c -> Good (same (sym_kind c) (String c "")).
Proof. intros H. cbn in H. repeat destruct H as [<-|H]; try destruct H; fixed. Qed.

Lemma good_space : Good (same KSpace " ").
Proof. fixed. Qed.
Lemma good_dollar : Good (same KSymbol "$").
Proof. fixed. Qed.
Lemma good_sup : Good (same KSymbol "^").
Proof. fixed. Qed.
Lemma good_sub : Good (same KSymbol "_").
Proof. fixed. Qed.
Lemma good_lbrace : Good (same KLbrace "{").
Proof. fixed. Qed.
Lemma good_rbrace : Good (same KRbrace "}").
Proof. fixed. Qed.
Lemma good_lbrack : Good (same KLbrack "[").
Proof. fixed. Qed.
Lemma good_rbrack : Good (same KRbrack "]").
Proof. fixed. Qed.

Lemma chars_avoid s r : r < 128 -> (forall a, In a (list_ascii_of_string s) -> byte a <> r) ->
  Forall (fun c => c_rune c <> r) (chars s).
Proof.
  intros R. remember (String.length s) as n eqn:En. revert s En.
  induction n as [n IH] using (well_founded_induction lt_wf). intros s En H.
  destruct s as [|a s]; [constructor|].
  assert (Ne : String a s <> "") by discriminate. pose proof (chars_step _ Ne) as E.
  pose proof (chars_wf (String a s)) as W. pose proof (decode_rune_width _ Ne) as [D1 D2].
  destruct (decode_rune (String a s)) as [r0 w] eqn:Ed. cbn [fst snd] in *.
  rewrite E in W |- *. apply Forall_inv in W. destruct W as (W1 & W2 & W3 & _). cbn [c_rune c_raw] in *.
  constructor.
  - cbn [c_rune]. intros ->. specialize (W3 R). destruct w; [lia|]. cbn in W3. injection W3 as A _.
    apply (H a); [now left|]. rewrite A. apply byte_zascii. lia.
  - eapply IH; [|reflexivity|].
    + rewrite sdrop_length. lia.
    + intros b I. apply H. clear -I. revert I. generalize w as k, (String a s) as t.
      induction k as [|k IH]; intros t I; [assumption|]. destruct t; [destruct I|]. right. now apply IH.
Qed.

Lemma good_comment c : comment_ok c ->
  Good (KComment, append "%" (append c newline), append "%" (strip_cr c)).
Proof.
  intros P. set (pct := mk_chr 37 "%"). set (nl := mk_chr 10 newline).
  assert (Ec : chars (append "%" (append c newline)) = pct :: chars c ++ [nl]).
  { cbn [append]. rewrite chars_ascii by (vm_compute; reflexivity).
    rewrite chars_app by (cbn; left; reflexivity). reflexivity. }
  assert (F : Forall (fun c => c_rune c <> 10 /\ c_rune c <> 34) (chars c)).
  { pose proof (chars_avoid c 10 ltac:(lia) (fun a I => proj1 (P a I))) as A.
    pose proof (chars_avoid c 34 ltac:(lia) (fun a I => proj2 (P a I))) as B.
    rewrite Forall_forall in *. auto. }
  split; [discriminate|]. split; [cbn; left; reflexivity|]. split; [vm_compute; discriminate|]. split; [discriminate|].
  rewrite Ec. split.
  - intros o. unfold lex1. cbn [l_rest l_off].
    assert (S1 : gscan U true (pct :: chars c ++ [nl]) = (GRune 37, [], [pct], chars c ++ [nl])) by reflexivity.
    rewrite S1. change (37 =? 92) with false. change (37 =? 32) with false. change (37 =? 37) with true. cbv iota.
    rewrite (scan_comment_line U _ (chars c) nl [] eq_refl F) by lia.
    assert (L : clen ([pct] ++ chars c ++ [nl]) = zlen (append "%" (append c newline))).
    { unfold clen. change ([pct] ++ chars c ++ [nl]) with (pct :: chars c ++ [nl]). rewrite <- Ec, chars_raw. reflexivity. }
    rewrite L. change (clen []) with 0. rewrite Z.add_0_r. reflexivity.
  - intros d o pk _. unfold tail_ok. change (xk _) with KComment. cbv iota. cbn [x_raw].
    cbn [rev]. rewrite rev_app_distr. cbn [rev app].
    apply andb_true_iff. split; [reflexivity|]. rewrite forallb_app. apply andb_true_iff. split; [|reflexivity].
    apply forallb_forall. intros y I. apply in_rev in I. rewrite Forall_forall in F. specialize (F y I). lia.
Qed.

Lemma good_macro nm : macro_name_ok nm = true -> Good (same KMacro nm).
Proof.
  destruct nm as [|b [|c nm]]; try discriminate. cbn [macro_name_ok]. intros H.
  apply andb_true_iff in H as [Hb H]. apply Z.eqb_eq in Hb.
  assert (Eb : b = "\"%char).
  { rewrite <- (zascii_byte b), Hb. reflexivity. }
  subst b.
  assert (Hc : 32 < byte c < 127).
  { destruct (is_ascii_letter (byte c)) eqn:E; [unfold is_ascii_letter, in_range in E|]; lia. }
  split; [discriminate|]. split; [cbn; left; reflexivity|]. split; [vm_compute; discriminate|]. split; [discriminate|].
  set (bs := mk_chr 92 "\"). set (k := mk_chr (byte c) (String c "")).
  assert (Ec : chars (String "\" (String c nm)) = bs :: k :: chars nm).
  { rewrite chars_ascii by (vm_compute; reflexivity). rewrite chars_ascii by lia. reflexivity. }
  rewrite Ec.
  assert (Rn : raw_of (chars nm) = nm) by apply chars_raw.
  assert (R32 : byte c =? 32 = false) by lia. assert (Wc : is_ws (byte c) = false) by (unfold is_ws; lia).
  destruct (is_ascii_letter (byte c)) eqn:La.
  - assert (Ll : is_letter U (byte c) = true) by (unfold is_letter; replace (byte c <? 128) with true by lia; exact La).
    assert (Ln : Forall (fun x => is_letter U (c_rune x) = true) (chars nm)).
    { clear -H. induction nm as [|a nm IH]; [constructor|]. cbn [list_ascii_of_string forallb] in H.
      apply andb_true_iff in H as [Ha H]. assert (byte a < 128) by (unfold is_ascii_letter, in_range in Ha; lia).
      rewrite chars_ascii by assumption. constructor; [|now apply IH]. cbn. unfold is_letter.
      replace (byte a <? 128) with true by lia. exact Ha. }
    split.
    + intros o. unfold lex1. cbn [l_rest l_off].
      assert (S1 : gscan U true (bs :: k :: chars nm) = (GRune 92, [], [bs], k :: chars nm)) by reflexivity.
      rewrite S1. change (92 =? 92) with true. cbv iota. cbn [peek k c_rune]. rewrite R32.
      assert (S2 : gscan U true (k :: chars nm) = (GIdent, [], k :: chars nm, [])).
      { unfold gscan. cbn [span]. change (c_rune k) with (byte c). rewrite Wc. cbv iota beta. change (c_rune k) with (byte c). rewrite Ll.
        rewrite (span_all (is_letter U) _ (chars nm) []); [reflexivity|now rewrite app_nil_r|assumption|exact I]. }
      fold k. rewrite S2. change (clen []) with 0. unfold clen. cbn [app raw_of bs k c_raw append]. rewrite Rn, Z.add_0_r. reflexivity.
    + intros d o pk S. unfold tail_ok. change (xk _) with KMacro. cbv iota. cbn [x_raw tl].
      cbn [span]. change (c_rune k) with (byte c). rewrite Wc. cbn [snd]. change (c_rune k) with (byte c). rewrite Ll.
      unfold stops_at in S. destruct (String.eqb_spec (String "\" (String c nm)) "\.") as [E|_].
      * injection E as -> ->. discriminate La.
      * rewrite La in S. exact S.
  - apply andb_true_iff in H as [H Hq]. apply andb_true_iff in H as [H Hd].
    apply andb_true_iff in H as [H Hl]. apply andb_true_iff in H as [Hn Hg].
    apply String.eqb_eq in Hn. subst nm. change (chars "") with (@nil chr).
    assert (Ll : is_letter U (byte c) = false) by (unfold is_letter; replace (byte c <? 128) with true by lia; exact La).
    apply negb_true_iff in Hd, Hq.
    split.
    + intros o. unfold lex1. cbn [l_rest l_off].
      assert (S1 : gscan U true [bs; k] = (GRune 92, [], [bs], [k])) by reflexivity.
      rewrite S1. change (92 =? 92) with true. cbv iota. cbn [peek k c_rune]. rewrite R32.
      assert (S2 : gscan U true [k] = (GRune (byte c), [], [k], [])).
      { unfold gscan. cbn [span]. change (c_rune k) with (byte c). rewrite Wc. cbv iota beta. change (c_rune k) with (byte c). rewrite Ll, Hd, Hq.
        destruct (byte c =? 46); reflexivity. }
      fold k. rewrite S2. change (clen []) with 0. unfold clen. cbn [app raw_of bs k c_raw append]. rewrite Z.add_0_r. reflexivity.
    + intros d o pk S. unfold tail_ok. change (xk _) with KMacro. cbv iota. cbn [x_raw tl].
      cbn [span]. change (c_rune k) with (byte c). rewrite Wc. cbn [snd]. change (c_rune k) with (byte c). rewrite Ll, Hd, Hq. cbn [negb andb].
      unfold stops_at in S. destruct (String.eqb_spec (String "\" (String c "")) "\.") as [E|E].
      * rewrite S. apply orb_true_r.
      * destruct (Z.eqb_spec (byte c) 46) as [E46|]; [|reflexivity].
        exfalso. apply E. rewrite <- (zascii_byte c), E46. reflexivity.
Qed.

Scheme wf_mut := Minimality for wf Sort Prop
  with wf_seq_mut := Minimality for wf_seq Sort Prop
  with wf_args_mut := Minimality for wf_args Sort Prop.
Combined Scheme wf_mutind from wf_mut, wf_seq_mut, wf_args_mut.

Lemma pieces_good :
  (forall m d, wf U m d -> Forall Good (pieces d)) /\
  (forall m cl l, wf_seq U m cl l -> Forall Good (flat_map pieces l)) /\
  (forall m l, wf_args U m l -> Forall Good (flat_map pieces l)).
Proof.
  apply (wf_mutind U); intros; cbn [pieces flat_map];
    repeat first [apply Forall_nil | apply Forall_app; split | apply Forall_cons];
    auto using good_word, good_num, good_sym, good_space, good_comment, good_dollar, good_lbrace, good_rbrace,
      good_macro, good_lbrack, good_rbrack.
  all: destruct s; auto using good_sup, good_sub.
Qed.

(** ** The grammar *)

Lemma place_eq m o d :
  place m o d =
  match d with
  | DWord rs => NWord o (encode_runes rs)
  | DNum ds => NLit o ds
  | DSym c => NSym o (String c "")
  | DSpace => if m then NNil else NSym o " "
  | DComment _ => NNil
  | DMath l => NMath "$" o (place_seq true (o + 1) l) (o + size d - 1)
  | DGroup l => NList (place_seq m (o + 1) l)
  | DScript s x => (if s then NSup else NSub) o (place m (o + 1) x)
  | DMacro nm args => NMacro (Some (o, nm)) (place_seq m (o + zlen nm) args)
  | DReq l => NArg o (place_seq m (o + 1) l) (o + size d - 1)
  | DOpt l => NOptArg o (place_seq m (o + 1) l) (o + size d - 1)
  end.
Proof.
  destruct d; cbn [place]; try reflexivity.
  all: match goal with |- context[(fix seq (m : bool) (o : Z) (l : list doc) {struct l} := _)] =>
    set (sq := fix seq (m : bool) (o : Z) (l : list doc) {struct l} := match l with [] => [] | x :: l' => keep (place m o x) (seq m (o + size x) l') end) end.
  all: assert (E : forall l m o, sq m o l = place_seq m o l)
    by (induction l0 as [|x l0 IH]; intros; cbn [place_seq]; [reflexivity|]; unfold sq; fold sq; now rewrite IH).
  all: now rewrite E.
Qed.

Definition closer_piece (cl : closer) : piece :=
  match cl with
  | CDollar => same KSymbol "$" | CBrace => same KRbrace "}" | CBrack => same KRbrack "]" | CNone => same KEOF ""
  end.

Lemma pieces_first d : exists k s t ps, pieces d = (k, s, t) :: ps.
Proof. destruct d; cbn; repeat eexists. Qed.

Lemma first_not_close m d cl o pk x xs : wf U m d -> not_closer cl d -> lx_of o pk (pieces d) = x :: xs -> ~ closes cl x.
Proof.
  intros W N E C.
  assert (K : closes cl x -> (xk x = KSymbol /\ xt x = "$" /\ cl = CDollar) \/ xk x = KRbrace \/ (xk x = KRbrack /\ cl = CBrack)).
  { destruct cl; cbn [closes]; intuition. }
  apply K in C. clear K.
  inversion W; subst; cbn [pieces lx_of same] in E; injection E as <- <-; unfold xk, xt in C;
    cbn [x_tok t_kind t_text] in C; try (intuition discriminate).
  - unfold sym_ok in H. cbn in H.
    repeat destruct H as [<-|H]; try destruct H; cbn in C; try (intuition discriminate).
    destruct C as [(? & _)|[?|(_ & ->)]]; try discriminate. now apply N.
  - destruct C as [(_ & _ & ->)|[?|(? & _)]]; try discriminate. exact N.
  - destruct s; intuition discriminate.
  - destruct s; intuition discriminate.
Qed.

Lemma first_not_brace m d pk : wf U m d -> (forall l, d <> DGroup l) -> next_rune pk (pieces d) <> 123.
Proof.
  intros W N. inversion W; subst; cbn [pieces next_rune same].
  - destruct H as (Ne & H). destruct rs as [|r rs]; [congruence|]. destruct (H r (or_introl eq_refl)) as (Vr & Lr & _).
    cbn [encode_runes]. rewrite decode_encode_app by assumption. cbn. intros ->. discriminate Lr.
  - destruct H as (Ne & H). destruct ds as [|a ds]; [congruence|]. specialize (H a (or_introl eq_refl)).
    unfold decode_rune. replace (byte a <? 128) with true by lia. cbn. lia.
  - unfold sym_ok in H. cbn in H. repeat destruct H as [<-|H]; try destruct H; vm_compute; discriminate.
  - vm_compute; discriminate.
  - cbn [append]. vm_compute. discriminate.
  - vm_compute; discriminate.
  - now elim (N l).
  - destruct s; vm_compute; discriminate.
  - destruct s; vm_compute; discriminate.
  - destruct nm as [|b nm]; [discriminate|]. cbn [macro_name_ok] in H. destruct nm as [|c nm]; [discriminate|].
    apply andb_true_iff in H as [H _]. apply Z.eqb_eq in H. unfold decode_rune.
    replace (byte b <? 128) with true by lia. cbn. lia.
Qed.

Lemma peek_after_lx o pk ps p : peek_after 0 (lx_of o pk (ps ++ [p])) = pk.
Proof.
  rewrite lx_of_app. unfold peek_after. rewrite rev_app_distr. destruct p as [[k s] t]. reflexivity.
Qed.

Lemma size_eq d : size d = zlen (join (pieces d)).
Proof. reflexivity. Qed.

Lemma join_flat d l : zlen (join (flat_map pieces (d :: l))) = size d + zlen (join (flat_map pieces l)).
Proof. cbn [flat_map]. rewrite join_app. apply zlen_app. Qed.

Lemma wf_grammar :
  (forall m d, wf U m d -> forall o pk, GNode known_macro m (lx_of o pk (pieces d)) (place m o d) false) /\
  (forall m cl l, wf_seq U m cl l ->
     (forall o pk, GSeq known_macro m (lx_of o pk (flat_map pieces l)) (place_seq m o l)) /\
     (cl <> CNone -> forall o pk, GLoop known_macro m cl (lx_of o pk (flat_map pieces l ++ [closer_piece cl])) (place_seq m o l)
        (o + zlen (join (flat_map pieces l))) false)) /\
  (forall m l, wf_args U m l -> forall sg, args_fit sg l -> forall o pk,
     GArgs known_macro m (next_rune pk (flat_map pieces l)) sg (lx_of o pk (flat_map pieces l)) (place_seq m o l) false).
Proof.
  apply (wf_mutind U).
  - intros. rewrite place_eq. cbn [pieces lx_of same]. apply G_word. reflexivity.
  - intros. rewrite place_eq. cbn [pieces lx_of same]. apply G_number. reflexivity.
  - intros. rewrite place_eq. cbn [pieces lx_of same]. unfold sym_ok in H. cbn in H.
    repeat destruct H as [<-|H]; try destruct H.
    all: first [apply G_delim; cbn; now auto | apply G_symbol; [reflexivity|discriminate..]].
  - intros. rewrite place_eq. cbn [pieces lx_of same]. destruct m; [now apply G_space_math|now apply G_space].
  - intros. rewrite place_eq. cbn [pieces lx_of same]. now apply G_comment.
  - intros m l W [_ IH] o pk. specialize (IH ltac:(discriminate)). rewrite place_eq.
    assert (Sz : o + size (DMath l) - 1 = o + 1 + zlen (join (flat_map pieces l))).
    { unfold size. cbn [pieces]. change (same KSymbol "$" :: flat_map pieces l ++ [same KSymbol "$"])
        with ([same KSymbol "$"] ++ flat_map pieces l ++ [same KSymbol "$"]).
      rewrite !join_app, !zlen_app. change (zlen (join [same KSymbol "$"])) with 1. lia. }
    rewrite Sz. cbn [pieces lx_of same]. refine (G_math known_macro m (mk_lx (mk_tok KSymbol o "$") [] (chars "$") _) _ _ _ false eq_refl eq_refl _).
    apply (IH (o + 1) pk).
  - intros l W [_ IH] o pk. specialize (IH ltac:(discriminate)). rewrite place_eq. cbn [pieces lx_of same].
    eapply (G_group known_macro); [reflexivity|]. apply (IH (o + 1) pk).
  - intros m s l W [_ IH] o pk. specialize (IH ltac:(discriminate)). rewrite place_eq.
    rewrite (place_eq m (o + 1) (DGroup l)). cbn [pieces].
    assert (S : GScript known_macro m 123 (lx_of (o + 1) pk (same KLbrace "{" :: flat_map pieces l ++ [same KRbrace "}"]))
        (NList (place_seq m (o + 1 + 1) l)) false).
    { cbn [lx_of same]. eapply (S_group known_macro); [reflexivity|reflexivity|]. apply (IH (o + 1 + 1) pk). }
    destruct s; cbn [lx_of same].
    + refine (G_sup known_macro m (mk_lx (mk_tok KSymbol o "^") [] (chars "^") _) _ _ false eq_refl eq_refl _). exact S.
    + refine (G_sub known_macro m (mk_lx (mk_tok KSymbol o "_") [] (chars "_") _) _ _ false eq_refl eq_refl _). exact S.
  - intros m s d N W IH o pk. rewrite place_eq. cbn [pieces].
    assert (S : GScript known_macro m (next_rune pk (pieces d)) (lx_of (o + 1) pk (pieces d)) (place m (o + 1) d) false).
    { specialize (IH (o + 1) pk). destruct (lx_of (o + 1) pk (pieces d)) as [|x xs] eqn:E; [inversion IH|].
      apply S_node; [now apply (first_not_brace m)|exact IH]. }
    destruct s; cbn [lx_of same].
    + refine (G_sup known_macro m (mk_lx (mk_tok KSymbol o "^") [] (chars "^") _) _ _ false eq_refl eq_refl _). exact S.
    + refine (G_sub known_macro m (mk_lx (mk_tok KSymbol o "_") [] (chars "_") _) _ _ false eq_refl eq_refl _). exact S.
  - intros m nm sg args Nm Kn Fit W IH o pk. rewrite place_eq. cbn [pieces lx_of same].
    refine (G_macro known_macro m (mk_lx (mk_tok KMacro o nm) [] (chars nm) _) _ sg _ false eq_refl Kn _).
    apply (IH sg Fit).
  - intros m cl. split; [intros; constructor|]. intros Nc o pk. cbn [flat_map app place_seq].
    change (zlen (join [])) with 0. rewrite Z.add_0_r. destruct cl; [| | |congruence]; cbn [lx_of closer_piece same].
    all: match goal with |- GLoop _ _ _ [?x] _ ?p _ => change p with (xp x) end; apply L_close; cbn; auto.
  - intros m cl d l Wd IHd Nc Wl [IH1 IH2]. split.
    + intros o pk. cbn [flat_map place_seq]. rewrite lx_of_app. constructor; [apply IHd|apply IH1].
    + intros Ncl o pk. cbn [flat_map place_seq]. rewrite <- app_assoc, lx_of_app.
      specialize (IHd o (next_rune pk (flat_map pieces l ++ [closer_piece cl]))).
      assert (Fc : forall x xs, lx_of o (next_rune pk (flat_map pieces l ++ [closer_piece cl])) (pieces d) = x :: xs -> ~ closes cl x)
        by (intros x xs; now apply (first_not_close m)).
      destruct (lx_of o _ (pieces d)) as [|x xs]; [inversion IHd|]. cbn [app].
      replace (o + zlen (join (pieces d ++ flat_map pieces l))) with ((o + size d) + zlen (join (flat_map pieces l)))
        by (rewrite join_app, zlen_app, size_eq; lia).
      eapply L_node; [now apply (Fc x xs)|exact IHd|discriminate|]. apply (IH2 Ncl).
  - intros m sg Fit o pk. cbn [flat_map lx_of place_seq]. destruct sg as [|[] [|[] ?]]; try destruct Fit. constructor.
  - intros m l args Wl [_ IHl] Wa IHa sg Fit o pk. specialize (IHl ltac:(discriminate)).
    cbn [flat_map place_seq]. rewrite lx_of_app, place_eq, next_rune_app.
    set (pk' := next_rune pk (flat_map pieces args)).
    assert (Sz : o + size (DReq l) - 1 = o + 1 + zlen (join (flat_map pieces l))).
    { unfold size. cbn [pieces]. change (same KLbrace "{" :: flat_map pieces l ++ [same KRbrace "}"])
        with ([same KLbrace "{"] ++ flat_map pieces l ++ [same KRbrace "}"]).
      rewrite !join_app, !zlen_app. change (zlen (join [same KLbrace "{"])) with 1. change (zlen (join [same KRbrace "}"])) with 1. lia. }
    rewrite Sz. rewrite <- size_eq.
    assert (R : forall pk0 sg', args_fit sg' args ->
      GArgs known_macro m pk0 (Req :: sg') (lx_of o pk' (pieces (DReq l)) ++ lx_of (o + size (DReq l)) pk (flat_map pieces args))
        (NArg o (place_seq m (o + 1) l) (o + 1 + zlen (join (flat_map pieces l))) :: place_seq m (o + size (DReq l)) args) false).
    { intros pk0 sg' Fit'. cbn [pieces lx_of same app].
      refine (A_req known_macro m pk0 sg' (mk_lx (mk_tok KLbrace o "{") [] (chars "{") _) _ _ _ false _ _ false eq_refl (IHl (o + 1) pk') _ _);
        [discriminate|]. match goal with |- GArgs _ _ (peek_after 0 (?x :: ?xs)) _ _ _ _ =>
        replace (peek_after 0 (x :: xs)) with pk' end; [apply (IHa sg' Fit')|].
      symmetry. match goal with |- peek_after 0 (?x :: lx_of ?o1 ?p1 (?a ++ [?c])) = _ =>
        exact (peek_after_lx o pk' (same KLbrace "{" :: a) c) end. }
    cbn [keep].
    destruct sg as [|[] sg]; [destruct Fit|apply R; destruct sg; exact Fit|].
    destruct sg as [|[] sg]; try (now destruct Fit).
    apply (A_noopt known_macro); [vm_compute; discriminate|]. apply R. exact Fit.
  - intros m l args Wl [_ IHl] Wa IHa sg Fit o pk. specialize (IHl ltac:(discriminate)).
    cbn [flat_map place_seq]. rewrite lx_of_app, place_eq, next_rune_app.
    set (pk' := next_rune pk (flat_map pieces args)).
    assert (Sz : o + size (DOpt l) - 1 = o + 1 + zlen (join (flat_map pieces l))).
    { unfold size. cbn [pieces]. change (same KLbrack "[" :: flat_map pieces l ++ [same KRbrack "]"])
        with ([same KLbrack "["] ++ flat_map pieces l ++ [same KRbrack "]"]).
      rewrite !join_app, !zlen_app. change (zlen (join [same KLbrack "["])) with 1. change (zlen (join [same KRbrack "]"])) with 1. lia. }
    rewrite Sz. rewrite <- size_eq. cbn [keep].
    assert (Fs : exists sg', sg = Opt :: sg' /\ args_fit sg' args).
    { destruct sg as [|[] [|[] sg]]; try (now destruct Fit); eexists; (split; [reflexivity|exact Fit]). }
    destruct Fs as (sg' & -> & Fit'). cbn [pieces lx_of same app].
    refine (A_opt known_macro m _ sg' (mk_lx (mk_tok KLbrack o "[") [] (chars "[") _) _ _ _ false _ _ false eq_refl eq_refl (IHl (o + 1) pk') _ _);
      [discriminate|].
    match goal with |- GArgs _ _ (peek_after 0 (?x :: ?xs)) _ _ _ _ =>
      replace (peek_after 0 (x :: xs)) with pk' end; [apply (IHa sg' Fit')|].
    symmetry. match goal with |- peek_after 0 (?x :: lx_of ?o1 ?p1 (?a ++ [?c])) = _ =>
      exact (peek_after_lx o pk' (same KLbrack "[" :: a) c) end.
Qed.

Theorem well_formed_complete l : WellFormed U l -> Complete U (source l) (place_seq false 0 l).
Proof.
  intros (W & A). pose proof (proj1 (proj2 pieces_good) _ _ _ W) as G.
  pose proof (lex_pieces _ G A 0) as L. destruct (join_first _ G) as (Fb & Nb & _).
  destruct (proj1 (proj2 wf_grammar) _ _ _ W) as [Q _].
  exists (lx_of 0 (-1) (flat_map pieces l)). split; [|apply Q].
  unfold source. eexists (mk_ls _ []), _. split.
  - rewrite init_no_bom by exact Nb. exact L.
  - eexists. split; [reflexivity|reflexivity].
Qed.

End WithLetters.
