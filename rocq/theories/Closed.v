(** A checker for complete documents: used to exhibit concrete cases. *)
From Coq Require Import ZArith String Ascii List Bool Lia ZifyBool.
From Verif Require Import Utf8 GoScanner Token Lexer Ast Parser Grammar Stream ParserFacts GrammarFacts BoundarySpec LexProps.
Import ListNotations.
Local Open Scope string_scope.
Local Open Scope list_scope.
Local Open Scope Z_scope.

Definition closesb (c : closer) (x : lexeme) : bool :=
  match c with
  | CDollar => kind_beq (xk x) KSymbol && String.eqb (xt x) "$"
  | CBrace => kind_beq (xk x) KRbrace
  | CBrack => kind_beq (xk x) KRbrack
  | CNone => false
  end.

Lemma closesb_ok c x : closesb c x = true <-> closes c x.
Proof.
  destruct c; cbn; rewrite ?andb_true_iff, ?kind_beq_eq, ?String.eqb_eq; try tauto. split; [discriminate|tauto].
Qed.

Definition oret {A} (x : list lexeme) (a : A) (r : list lexeme) := Some (x, a, r).

Fixpoint rnode (n : nat) (m : bool) (xs : list lexeme) : option (list lexeme * node * list lexeme) :=
  match n, xs with
  | S n, x :: r =>
    let leaf nd := Some ([x], nd, r) in
    let sym := NSym (xp x) (xt x) in
    match xk x with
    | KComment => leaf NNil
    | KSpace => leaf (if m then NNil else sym)
    | KWord => leaf (NWord (xp x) (xt x))
    | KNumber => leaf (NLit (xp x) (xt x))
    | KLparen | KRparen | KLbrack | KRbrack => leaf sym
    | KSymbol =>
      if String.eqb (xt x) "$" then
        match rloop n true CDollar r with
        | Some (ys, (ns, c), zs) => Some (x :: ys, NMath "$" (xp x) ns c, zs) | None => None end
      else if String.eqb (xt x) "^" then
        match rscript n m (x_peek x) r with
        | Some (ys, nd, zs) => Some (x :: ys, NSup (xp x) nd, zs) | None => None end
      else if String.eqb (xt x) "_" then
        match rscript n m (x_peek x) r with
        | Some (ys, nd, zs) => Some (x :: ys, NSub (xp x) nd, zs) | None => None end
      else leaf sym
    | KLbrace =>
      if m then
        match rloop n true CBrace r with
        | Some (ys, (ns, c), zs) => Some (x :: ys, NList ns, zs) | None => None end
      else None
    | KMacro =>
      match known_macro (xt x) with
      | Some sg =>
        match rargs n m (x_peek x) sg r with
        | Some (ys, args, zs) => Some (x :: ys, NMacro (Some (xp x, xt x)) args, zs) | None => None end
      | None => None
      end
    | _ => None
    end
  | _, _ => None
  end
with rloop (n : nat) (m : bool) (c : closer) (xs : list lexeme) : option (list lexeme * (list node * Z) * list lexeme) :=
  match n, xs with
  | S n, x :: r =>
    if closesb c x then Some ([x], ([], xp x), r)
    else
      match rnode n m xs with
      | Some (ys, nd, zs) =>
        match rloop n m c zs with
        | Some (ys', (ns, p), zs') => Some (ys ++ ys', (keep nd ns, p), zs') | None => None end
      | None => None
      end
  | _, _ => None
  end
with rscript (n : nat) (m : bool) (pk : Z) (xs : list lexeme) : option (list lexeme * node * list lexeme) :=
  match n, xs with
  | S n, x :: r =>
    if pk =? 123 then
      if kind_beq (xk x) KLbrace then
        match rloop n m CBrace r with
        | Some (ys, (ns, c), zs) => Some (x :: ys, NList ns, zs) | None => None end
      else None
    else rnode n m xs
  | _, _ => None
  end
with rargs (n : nat) (m : bool) (pk : Z) (sg : list slot) (xs : list lexeme) : option (list lexeme * list node * list lexeme) :=
  match n with
  | O => None
  | S n =>
    match sg with
    | [] => Some ([], [], xs)
    | s :: sg' =>
      let group c k mk :=
        match xs with
        | x :: r =>
          if kind_beq (xk x) k then
            match rloop n m c r with
            | Some (ys, (ns, p), zs) =>
              match rargs n m (peek_after 0 (x :: ys)) sg' zs with
              | Some (ys', args, zs') => Some (x :: ys ++ ys', mk (xp x) ns p :: args, zs')
              | None => None
              end
            | None => None
            end
          else None
        | [] => None
        end in
      match s with
      | Req => group CBrace KLbrace NArg
      | Opt => if pk =? 91 then group CBrack KLbrack NOptArg else rargs n m pk sg' xs
      end
    end
  end.

Lemma r_sound n :
  (forall m xs ys nd zs, rnode n m xs = Some (ys, nd, zs) -> xs = ys ++ zs /\ GNode known_macro m ys nd false) /\
  (forall m c xs ys ns p zs, rloop n m c xs = Some (ys, (ns, p), zs) -> xs = ys ++ zs /\ GLoop known_macro m c ys ns p false) /\
  (forall m pk xs ys nd zs, rscript n m pk xs = Some (ys, nd, zs) -> xs = ys ++ zs /\ GScript known_macro m pk ys nd false) /\
  (forall m pk sg xs ys args zs, rargs n m pk sg xs = Some (ys, args, zs) -> xs = ys ++ zs /\ GArgs known_macro m pk sg ys args false).
Proof.
  induction n as [|n (IHn & IHl & IHs & IHa)]; [repeat split; discriminate|].
  assert (N : forall m xs ys nd zs, rnode (S n) m xs = Some (ys, nd, zs) -> xs = ys ++ zs /\ GNode known_macro m ys nd false).
  { intros m [|x r] ys nd zs; [discriminate|]. cbn [rnode].
    destruct (xk x) eqn:K; try discriminate.
    - destruct (known_macro (xt x)) as [sg|] eqn:Kn; [|discriminate].
      destruct (rargs n m (x_peek x) sg r) as [[[y a] z]|] eqn:E; [|discriminate].
      intros H; injection H as <- <- <-. apply IHa in E as [-> G]. split; [reflexivity|]. eapply G_macro; eassumption.
    - intros H; injection H as <- <- <-. split; [reflexivity|]. now apply G_comment.
    - intros H; injection H as <- <- <-. split; [reflexivity|]. destruct m; [now apply G_space_math|now apply G_space].
    - intros H; injection H as <- <- <-. split; [reflexivity|]. now apply G_word.
    - intros H; injection H as <- <- <-. split; [reflexivity|]. now apply G_number.
    - destruct (String.eqb_spec (xt x) "$").
      { destruct (rloop n true CDollar r) as [[[y [a c]] z]|] eqn:E; [|discriminate].
        intros H; injection H as <- <- <-. apply IHl in E as [-> G]. split; [reflexivity|]. now apply G_math. }
      destruct (String.eqb_spec (xt x) "^").
      { destruct (rscript n m (x_peek x) r) as [[[y a] z]|] eqn:E; [|discriminate].
        intros H; injection H as <- <- <-. apply IHs in E as [-> G]. split; [reflexivity|]. now apply G_sup. }
      destruct (String.eqb_spec (xt x) "_").
      { destruct (rscript n m (x_peek x) r) as [[[y a] z]|] eqn:E; [|discriminate].
        intros H; injection H as <- <- <-. apply IHs in E as [-> G]. split; [reflexivity|]. now apply G_sub. }
      intros H; injection H as <- <- <-. split; [reflexivity|]. now apply G_symbol.
    - destruct m; [|discriminate]. destruct (rloop n true CBrace r) as [[[y [a c]] z]|] eqn:E; [|discriminate].
      intros H; injection H as <- <- <-. apply IHl in E as [-> G]. split; [reflexivity|]. eapply G_group; eassumption.
    - intros H; injection H as <- <- <-. split; [reflexivity|]. apply G_delim. auto.
    - intros H; injection H as <- <- <-. split; [reflexivity|]. apply G_delim. auto.
    - intros H; injection H as <- <- <-. split; [reflexivity|]. apply G_delim. auto.
    - intros H; injection H as <- <- <-. split; [reflexivity|]. apply G_delim. auto. }
  split; [exact N|]. clear N. split; [|split].
  - intros m c [|x r] ys ns p zs; [discriminate|]. cbn [rloop]. destruct (closesb c x) eqn:C.
    + intros H; injection H as <- <- <- <-. split; [reflexivity|]. apply L_close. now apply closesb_ok.
    + destruct (rnode n m (x :: r)) as [[[y a] z]|] eqn:E; [|discriminate].
      destruct (rloop n m c z) as [[[y' [a' c']] z']|] eqn:E'; [|discriminate].
      intros H; injection H as <- <- <- <-. apply IHn in E as [E G]. apply IHl in E' as [-> G'].
      rewrite app_assoc in E. split; [exact E|].
      destruct y as [|x' y]; [inversion G|]. injection E as <- ->. cbn [app].
      eapply L_node; [|exact G|discriminate|exact G']. rewrite <- closesb_ok. congruence.
  - intros m pk [|x r] ys nd zs; [discriminate|]. cbn [rscript]. destruct (Z.eqb_spec pk 123).
    + destruct (kind_beq (xk x) KLbrace) eqn:K; [|discriminate]. apply kind_beq_eq in K.
      destruct (rloop n m CBrace r) as [[[y [a c]] z]|] eqn:E; [|discriminate].
      intros H; injection H as <- <- <-. apply IHl in E as [-> G]. split; [reflexivity|]. eapply S_group; eassumption.
    + intros H. apply IHn in H as [E G]. split; [exact E|].
      destruct ys as [|x' ys]; [inversion G|]. now apply S_node.
  - intros m pk sg xs ys args zs. cbn [rargs].
    destruct sg as [|s sg]; [intros H; injection H as <- <- <-; split; [reflexivity|constructor]|].
    destruct s; [|destruct (Z.eqb_spec pk 91); [|intros H; apply IHa in H as [E H]; split; [exact E|now apply A_noopt]]].
    +
      destruct xs as [|x r]; [discriminate|].
      destruct (kind_beq (xk x) KLbrace) eqn:K; [|discriminate]; apply kind_beq_eq in K.
      destruct (rloop n m CBrace r) as [[[y [a p]] z]|] eqn:E; [|discriminate].
      destruct (rargs n m (peek_after 0 (x :: y)) sg z) as [[[y' a'] z']|] eqn:E'; [|discriminate].
      intros H; injection H as <- <- <-; apply IHl in E as [-> G]; apply IHa in E' as [-> G'].
      split; [cbn; now rewrite <- app_assoc|].
      apply (A_req known_macro m pk sg x y a p false y' a' false); auto; discriminate.
    +
      destruct xs as [|x r]; [discriminate|].
      destruct (kind_beq (xk x) KLbrack) eqn:K; [|discriminate]; apply kind_beq_eq in K.
      destruct (rloop n m CBrack r) as [[[y [a p]] z]|] eqn:E; [|discriminate].
      destruct (rargs n m (peek_after 0 (x :: y)) sg z) as [[[y' a'] z']|] eqn:E'; [|discriminate].
      intros H; injection H as <- <- <-; apply IHl in E as [-> G]; apply IHa in E' as [-> G'].
      split; [cbn; now rewrite <- app_assoc|].
      subst pk. apply (A_opt known_macro m 91 sg x y a p false y' a' false); auto; discriminate.
Qed.

Fixpoint rseq (n : nat) (xs : list lexeme) : option (list node) :=
  match xs with
  | [] => Some []
  | _ =>
    match n with
    | O => None
    | S n =>
      match rnode (4 * List.length xs) false xs with
      | Some (_, nd, zs) => match rseq n zs with Some ns => Some (keep nd ns) | None => None end
      | None => None
      end
    end
  end.

Lemma rseq_sound n xs ns : rseq n xs = Some ns -> GSeq known_macro false xs ns.
Proof.
  revert xs ns; induction n as [|n IH]; intros [|x xs] ns; cbn [rseq]; try discriminate.
  - intros H; injection H as <-. constructor.
  - intros H; injection H as <-. constructor.
  - destruct (rnode _ false (x :: xs)) as [[[y nd] zs]|] eqn:E; [|discriminate].
    destruct (rseq n zs) as [ns'|] eqn:E'; [|discriminate]. intros H; injection H as <-.
    apply r_sound in E as [-> G]. constructor; auto.
Qed.

(** The nodes of [a] if all its constructs are complete. *)
Definition complete_nodes U (a : string) : option (list node) :=
  match lex_all U a with
  | (xs, Some (LexOk _ _)) => rseq (List.length xs) xs
  | _ => None
  end.

Lemma complete_nodes_sound U a ns : complete_nodes U a = Some ns -> Complete U a ns.
Proof.
  unfold complete_nodes. destruct (lex_all U a) as [xs [[y s|]|]] eqn:E; try discriminate.
  intros R. exists xs. split; [eapply lex_all_tokens, E|eapply rseq_sound, R].
Qed.

(** The condition on the boundary of [a] and [b], for non-empty [b]. *)
Definition cut_ok U (a b : string) : bool :=
  match b with
  | "" => true
  | String c _ =>
    ((byte c <? 128) || (192 <=? byte c)) && negb (fst (decode_rune b) =? BOM) &&
    match lex_all U a with
    | (xs, Some (LexOk _ _)) =>
      match rev xs with
      | [] => true
      | l :: _ => (xp l + clen (x_raw l) <? zlen a) || tail_ok U l (fst (decode_rune b))
      end
    | _ => false
    end
  end.

Lemma cut_ok_sound U a b : cut_ok U a b = true -> Cut U a b.
Proof.
  intros C. destruct b as [|c b].
  { split; [exact I|]. split; [vm_compute; discriminate|]. intros xs _ N. congruence. }
  cbn [cut_ok] in C. apply andb_true_iff in C as [C D]. apply andb_true_iff in C as [C E].
  split; [cbn; lia|]. split; [lia|]. intros xs T' _.
  destruct (lex_all U a) as [ys [[y s|]|]] eqn:L; try discriminate.
  assert (ys = xs) by (eapply Tokens_det; [eapply lex_all_tokens; eassumption|eassumption]). subst ys.
  unfold ends_ws. destruct (rev xs) as [|l r]; [left; exact I|]. apply orb_true_iff in D as [D|D]; [left; lia|now right].
Qed.
