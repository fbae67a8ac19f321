(** Shape of the tokens returned by the lexer. *)
From Coq Require Import ZArith String Ascii List Bool Lia ZifyBool.
From Verif Require Import Utf8 GoScanner Token Lexer Utf8Facts LexFacts.
Import ListNotations.
Local Open Scope string_scope.
Local Open Scope Z_scope.

Definition wf_ls (s : lstate) : Prop := Forall wf_chr (l_rest s).

Lemma init_lex_wf x : wf_ls (init_lex x).
Proof.
  unfold wf_ls, init_lex. pose proof (chars_wf x) as H.
  destruct (chars x) as [|c l]; [constructor|]. inv H.
  destruct (c_rune c =? BOM); cbn; auto.
Qed.

Lemma raw_one c : wf_chr c -> c_rune c < 128 -> raw_of [c] = String (zascii (c_rune c)) "".
Proof. intros (_ & _ & H & _) L. cbn. rewrite H by assumption. reflexivity. Qed.

Section WithLetters.
Variable U : Z -> bool.
Notation gscan := (gscan U).
Notation lex1 := (lex1 U).

Lemma lex1_wf s x s' : wf_ls s -> lex1 s = LexOk x s' -> wf_ls s'.
Proof.
  unfold wf_ls. intros W H. apply lex1_split in H as (E & _).
  rewrite E in W. apply Forall_app in W as [_ W]. now apply Forall_app in W as [_ W].
Qed.

(** The text of a symbol token is one of the 17 symbol characters. *)
Definition tok_shape (t : token) : Prop :=
  match t_kind t with
  | KSymbol => exists r, is_symbol_rune r = true /\ t_text t = String (zascii r) ""
  | KLbrace => t_text t = "{"
  | KRbrace => t_text t = "}"
  | KLbrack => t_text t = "["
  | KRbrack => t_text t = "]"
  | KLparen => t_text t = "("
  | KRparen => t_text t = ")"
  | KSpace => t_text t = " " \/ t_text t = "\ "
  | KComment => exists s, t_text t = String "%" s
  | KMacro => exists s, t_text t = String "\" s
  | KWord => exists c l, is_letter U (c_rune c) = true /\ wf_chr c /\
                         t_text t = raw_of (c :: l)
  | KNumber => exists c l, (is_decimal (c_rune c) = true \/ c_rune c = 46) /\ wf_chr c /\
                         t_text t = raw_of (c :: l)
  | KOther => exists s, t_text t = String """" s
  | KEOF => t_text t = ""
  | _ => False
  end.

Lemma symbol_rune_ascii r : is_symbol_rune r = true -> 33 <= r < 128.
Proof.
  unfold is_symbol_rune. cbn [existsb]. rewrite !orb_true_iff, !Z.eqb_eq. lia.
Qed.

Lemma bracket_kind_inv r k : bracket_kind r = Some k ->
  (r = 91 /\ k = KLbrack) \/ (r = 93 /\ k = KRbrack) \/ (r = 123 /\ k = KLbrace) \/
  (r = 125 /\ k = KRbrace) \/ (r = 40 /\ k = KLparen) \/ (r = 41 /\ k = KRparen).
Proof.
  unfold bracket_kind.
  destruct (Z.eqb_spec r 91) as [->|_]; [intros E; injection E as <-; auto 8|].
  destruct (Z.eqb_spec r 93) as [->|_]; [intros E; injection E as <-; auto 8|].
  destruct (Z.eqb_spec r 123) as [->|_]; [intros E; injection E as <-; auto 8|].
  destruct (Z.eqb_spec r 125) as [->|_]; [intros E; injection E as <-; auto 8|].
  destruct (Z.eqb_spec r 40) as [->|_]; [intros E; injection E as <-; auto 8|].
  destruct (Z.eqb_spec r 41) as [->|_]; [intros E; injection E as <-; auto 8|]. discriminate.
Qed.

Lemma gscan_kind ws l k sk a b :
  gscan ws l = (k, sk, a, b) ->
  match k, a with
  | GEOF, _ => True
  | GIdent, c :: _ => is_letter U (c_rune c) = true
  | GInt, c :: _ | GFloat, c :: _ => is_decimal (c_rune c) = true \/ c_rune c = 46
  | GString, c :: _ => c_rune c = 34
  | GRune r, _ => is_letter U r = false /\ is_decimal r = false /\ r <> 34
  | _, [] => False
  end.
Proof.
  intros H. pose proof (gscan_progress _ _ _ _ _ _ _ H) as P. revert H.
  unfold GoScanner.gscan.
  destruct (if ws then span is_ws l else ([], l)) as [sk0 l0].
  destruct l0 as [|c l']; [now intros [= <- <- <- <-]|].
  destruct (is_letter U (c_rune c)) eqn:EL.
  { destruct (span (is_letter U) l') as [a' b']. intros H; inv H. exact EL. }
  destruct (is_decimal (c_rune c)) eqn:ED.
  { destruct (scan_number (c :: l')) as [[k' a'] b'] eqn:S. intros H; inv H.
    apply scan_number_split in S as (E & K & N). specialize (N ED).
    destruct a as [|c' a]; [congruence|]. inv E. destruct K as [-> | ->]; auto. }
  destruct (c_rune c =? 34) eqn:EQ.
  { destruct (scan_string false l') as [a' b']. intros H; inv H. lia. }
  destruct (c_rune c =? 46) eqn:E46.
  { destruct l' as [|d l2].
    - intros H; inv H. repeat split; auto; lia.
    - destruct (is_decimal (c_rune d)).
      + destruct (scan_frac false (d :: l2)) as [a' b']. intros H; inv H. right; lia.
      + intros H; inv H. repeat split; auto; lia. }
  intros H; inv H. repeat split; auto; lia.
Qed.

Lemma lex1_shape s x s' : wf_ls s -> lex1 s = LexOk x s' -> tok_shape (x_tok x).
Proof.
  unfold wf_ls, Lexer.lex1. intros W.
  destruct (gscan true (l_rest s)) as [[[k sk] a] b] eqn:G.
  pose proof (gscan_kind _ _ _ _ _ _ G) as K.
  apply gscan_split in G as (E & _ & _ & _ & K2). rewrite E in W.
  apply Forall_app in W as [_ W]. apply Forall_app in W as [W _].
  destruct k; cbn [x_tok].
  - intros [= <- <-]. reflexivity.
  - intros [= <- <-]. destruct a as [|c a]; [easy|]. inv W. exists c, a. auto.
  - intros [= <- <-]. destruct a as [|c a]; [easy|]. inv W. exists c, a. auto.
  - intros [= <- <-]. destruct a as [|c a]; [easy|]. inv W. exists c, a. auto.
  - intros [= <- <-]. destruct a as [|c a]; [easy|]. inv W.
    unfold tok_shape; cbn. destruct H1 as (_ & _ & H1 & _). rewrite H1 by lia. rewrite K.
    eexists. reflexivity.
  - destruct K2 as (c & -> & <-). inv W.
    destruct (c_rune c =? 92).
    { destruct (gscan true b) as [[[k2 sk2] a2] b2].
      destruct (peek b =? 32); intros [= <- <-]; unfold tok_shape; cbn; eauto. }
    destruct (c_rune c =? 32); [intros [= <- <-]; unfold tok_shape; cbn; auto|].
    destruct (c_rune c =? 37).
    { destruct (scan_comment U (S (List.length b)) b) as [[t a2] b2].
      intros [= <- <-]; unfold tok_shape; cbn; eauto. }
    destruct (is_symbol_rune (c_rune c)) eqn:ES.
    { intros [= <- <-]; unfold tok_shape; cbn -[raw_of].
      exists (c_rune c); split; [assumption|]. apply raw_one; [assumption|].
      apply symbol_rune_ascii in ES. lia. }
    destruct (bracket_kind (c_rune c)) as [k|] eqn:B; [|discriminate].
    intros [= <- <-]. apply bracket_kind_inv in B. unfold tok_shape; cbn [t_kind t_text x_tok].
    assert (R : raw_of [c] = String (zascii (c_rune c)) "") by (apply raw_one; auto; lia).
    cbn [raw_of] in R. rewrite R. repeat (destruct B as [[-> ->]|B]; [reflexivity|]). destruct B as [-> ->]. reflexivity.
Qed.

(** The text is the source extent, except for comments (whose CRs are dropped)
    and macros whose backslash is followed by skipped whitespace. *)
Lemma lex1_text s x s' :
  wf_ls s -> lex1 s = LexOk x s' -> t_kind (x_tok x) <> KComment ->
  match t_kind (x_tok x) with
  | KMacro => exists bs sk nm,
      x_raw x = bs :: sk ++ nm /\ c_rune bs = 92 /\
      Forall (fun c => is_ws (c_rune c) = true) sk /\
      t_text (x_tok x) = append "\" (raw_of nm)
  | _ => t_text (x_tok x) = raw_of (x_raw x)
  end.
Proof.
  unfold wf_ls, Lexer.lex1. intros W.
  destruct (gscan true (l_rest s)) as [[[k sk] a] b] eqn:G.
  pose proof (gscan_kind _ _ _ _ _ _ G) as K.
  apply gscan_split in G as (E & _ & _ & _ & K2). rewrite E in W.
  apply Forall_app in W as [_ W]. apply Forall_app in W as [W Wb].
  destruct k; cbn [x_tok].
  - destruct K2 as [-> ->]. intros [= <- <-] _. reflexivity.
  - intros [= <- <-] _. reflexivity.
  - intros [= <- <-] _. reflexivity.
  - intros [= <- <-] _. reflexivity.
  - intros [= <- <-] _. reflexivity.
  - destruct K2 as (c & -> & <-). inv W.
    destruct (c_rune c =? 92) eqn:E92.
    { destruct (peek b =? 32) eqn:P32.
      - destruct b as [|d b]; [cbn in P32; lia|]. cbn [peek] in P32.
        assert (GS : gscan true (d :: b) = (GRune 32, [], [d], b)).
        { assert (R : c_rune d = 32) by lia.
          unfold GoScanner.gscan. cbn [span]. rewrite R. change (is_ws 32) with false. cbv iota. rewrite R. reflexivity. }
        rewrite GS. intros [= <- <-] _. cbn [x_tok t_kind t_text x_raw].
        inv Wb. cbn [app]. destruct H1 as (_ & _ & H1 & _). destruct H3 as (_ & _ & H3 & _).
        cbn [raw_of]. rewrite H1, H3 by lia.
        replace (c_rune c) with 92 by lia. replace (c_rune d) with 32 by lia. reflexivity.
      - destruct (gscan true b) as [[[k2 sk2] a2] b2] eqn:G2.
        apply gscan_split in G2 as (E2 & F2 & _).
        intros [= <- <-] _. cbn [x_tok t_kind t_text x_raw].
        exists c, sk2, a2. repeat split; auto. lia. }
    destruct (c_rune c =? 32) eqn:E32.
    { intros [= <- <-] _. cbn [x_tok t_kind t_text x_raw].
      rewrite raw_one by (auto; lia). replace (c_rune c) with 32 by lia. reflexivity. }
    destruct (c_rune c =? 37).
    { destruct (scan_comment U (S (List.length b)) b) as [[t a2] b2].
      intros [= <- <-] N. exfalso. apply N. reflexivity. }
    destruct (is_symbol_rune (c_rune c)); [intros [= <- <-] _; reflexivity|].
    destruct (bracket_kind (c_rune c)) as [k|] eqn:B; [|discriminate].
    intros [= <- <-] _. cbn. apply bracket_kind_inv in B.
    repeat (destruct B as [[_ ->]|B]; [reflexivity|]). destruct B as [_ ->]. reflexivity.
Qed.

(** Deciding kinds from texts. *)
Lemma is_letter_byte r : is_letter U r = true -> r < 128 ->
  in_range 65 90 r = true \/ in_range 97 122 r = true.
Proof.
  unfold is_letter, is_ascii_letter. intros H L.
  replace (r <? 128) with true in H by lia. now apply orb_true_iff in H.
Qed.

(** First byte of a token's text, by kind. *)
Lemma shape_first t : tok_shape t ->
  match t_text t with
  | EmptyString => t_kind t = KEOF
  | String a s =>
    let b := byte a in
    match t_kind t with
    | KSymbol => is_symbol_rune b = true /\ s = ""
    | KLbrace => b = 123 /\ s = ""
    | KRbrace => b = 125 /\ s = ""
    | KLbrack => b = 91 /\ s = ""
    | KRbrack => b = 93 /\ s = ""
    | KLparen => b = 40 /\ s = ""
    | KRparen => b = 41 /\ s = ""
    | KSpace => (b = 32 /\ s = "") \/ (b = 92 /\ s = " ")
    | KComment => b = 37
    | KMacro => b = 92
    | KWord => in_range 65 90 b = true \/ in_range 97 122 b = true \/ 128 <= b
    | KNumber => is_decimal b = true \/ b = 46
    | KOther => b = 34
    | _ => False
    end
  end.
Proof.
  unfold tok_shape. intros H.
  destruct (t_kind t) eqn:K; try easy.
  - destruct H as (s & ->). reflexivity.
  - destruct H as (s & ->). reflexivity.
  - destruct H as [-> | ->]; cbn; auto.
  - destruct H as (c & l & L & W & ->). cbn [raw_of].
    destruct (wf_chr_first c W) as (a & t' & -> & [(H1 & H2 & H3)|(H1 & H2)]); cbn [append].
    + rewrite H2. destruct (is_letter_byte _ L H1); auto.
    + auto.
  - destruct H as (c & l & L & W & ->). cbn [raw_of].
    destruct (wf_chr_first c W) as (a & t' & -> & [(H1 & H2 & H3)|(H1 & H2)]); cbn [append].
    + now rewrite H2.
    + unfold is_decimal, in_range in L. lia.
  - destruct H as (r & R & ->). pose proof (symbol_rune_ascii _ R).
    rewrite byte_zascii by lia. auto.
  - rewrite H; cbn; auto.
  - rewrite H; cbn; auto.
  - rewrite H; cbn; auto.
  - rewrite H; cbn; auto.
  - rewrite H; cbn; auto.
  - rewrite H; cbn; auto.
  - destruct H as (s & ->). reflexivity.
  - now rewrite H.
Qed.

Ltac by_first H E :=
  apply shape_first in H; rewrite E in H;
  match type of H with
  | context [match t_kind ?t with _ => _ end] => destruct (t_kind t); try easy
  end;
  exfalso; cbn in H; unfold is_decimal, in_range in H;
  try (repeat match type of H with
       | _ /\ _ => destruct H as [H ?]
       | _ \/ _ => destruct H as [H|H] end; solve [discriminate | lia]).

Lemma shape_lbrace t : tok_shape t -> (t_text t = "{" <-> t_kind t = KLbrace).
Proof.
  split; [|intros E; unfold tok_shape in H; now rewrite E in H].
  intros E. by_first H E.
Qed.

Lemma shape_lbrack t : tok_shape t -> (t_text t = "[" <-> t_kind t = KLbrack).
Proof.
  split; [|intros E; unfold tok_shape in H; now rewrite E in H].
  intros E. by_first H E.
Qed.

Lemma shape_dollar t : tok_shape t -> t_text t = "$" -> t_kind t = KSymbol.
Proof. intros H E. by_first H E. Qed.

End WithLetters.
