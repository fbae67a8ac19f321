(** The typesetter with its log (LogMtex.v) does what the typesetter (Mtex.v) does. *)
From Coq Require Import ZArith String Ascii List Bool Lia.
From Verif Require Import Utf8 Token Ast Parser Symbols Arith Box Warn Mtex LogMtex.
Import ListNotations.
Local Open Scope string_scope.
Local Open Scope list_scope.
Local Open Scope Z_scope.

Definition same {S X} (w : W S X) (m : M S X) : Prop := forall s, fst (w s) = m s.
Lemma same_quiet {S X} (m : M S X) : same (quiet m) m.
Proof. intros s. reflexivity. Qed.
Lemma same_ret {S X} (x : X) : same (S:=S) (wret x) (mret x).
Proof. intros s. reflexivity. Qed.
Lemma same_bind {S X Y} (w : W S X) m (f : X -> W S Y) g :
  same w m -> (forall x, same (f x) (g x)) -> same (wbind w f) (mbind m g).
Proof.
  intros H K s. unfold wbind, mbind. specialize (H s). destruct (w s) as [[[x s']|e] l]; cbn [fst snd] in *; rewrite <- H; [apply K|reflexivity].
Qed.
Lemma same_say {S X} t (w : W S X) m : same w m -> same (wbind (say t) (fun _ => w)) m.
Proof. intros H s. unfold wbind, say. cbn. apply H. Qed.
Lemma same_if {S X} (b : bool) (w w' : W S X) m m' : same w m -> same w' m' -> same (if b then w else w') (if b then m else m').
Proof. now destruct b. Qed.

Section Same.
Context {A : arith} {S : Type}.
Variable range : Symbols.gset -> list string.
Variable be : @backend A S.
Variable parse_float : string -> option (Arith.F A).
Variable expr : string.
Notation W := (W S).
Notation M := (Box.M S).

Lemma same_hpack w a t : same (S:=S) (w_hpack w a t) (mret (hpack (A:=A) w a t)).
Proof. apply same_say, same_ret. Qed.
Lemma same_vpack h a l t : same (S:=S) (w_vpack h a l t) (mlift (vpack (A:=A) h a l t)).
Proof. apply same_say, same_quiet. Qed.
Lemma same_hlist l k : same (w_hlist_of be l k) (hlist_of be l k).
Proof. apply same_bind; [apply same_quiet|intros; apply same_hpack]. Qed.
Lemma same_vlist l : same (S:=S) (w_vlist_of (A:=A) l) (vlist_of l).
Proof.
  intros s. unfold w_vlist_of. rewrite (same_vpack f0 true (fpinf A) (list_of KVList l) s). unfold vlist_of. now destruct (vpack _ _ _ _).
Qed.
Lemma same_hcentered l : same (w_hcentered be l) (hcentered be l).
Proof. apply same_hlist. Qed.
Ltac bind := match goal with
  | |- same (wbind _ _) (mbind _ _) => apply same_bind; [|intros]
  | |- same (quiet _) _ => apply same_quiet
  | |- same (wret _) _ => apply same_ret
  | |- same (w_hlist_of _ _ _) _ => apply same_hlist
  | |- same (w_vlist_of _) _ => apply same_vlist
  | |- same (w_hcentered _ _) _ => apply same_hcentered
  | |- same (w_vpack _ _ _ _) _ => apply same_vpack
  | |- same (if _ then _ else _) _ => apply same_if
  end.
Lemma same_ahc c h d st f : same (w_auto_height_char be c h d st f) (auto_height_char be c h d st f).
Proof. unfold w_auto_height_char, auto_height_char. repeat bind. Qed.
Lemma same_symbol sym pos st m : same (w_symbol range be expr sym pos st m) (handle_symbol range be expr sym pos st m).
Proof. unfold w_symbol, handle_symbol. repeat bind. Qed.
Lemma same_function n st m : same (w_function be n st m) (handle_function be n st m).
Proof. unfold w_function, handle_function. repeat bind. Qed.
Lemma same_delimited a t b st : same (w_delimited be a t b st) (auto_sized_delimiter be a t b st).
Proof. unfold w_delimited, auto_sized_delimiter. repeat (bind || apply same_ahc). Qed.
Lemma same_pack_bind {Y} w a t (f : tnode -> W Y) (m : M Y) : same (f (hpack (A:=A) w a t)) m -> same (wbind (w_hpack w a t) f) m.
Proof. intros H s. specialize (H s). unfold wbind, w_hpack, say, wret, wbind. cbn [fst snd]. exact H. Qed.
Lemma same_genfrac a b r sty n d st : same (w_genfrac be a b r sty n d st) (genfrac be a b r sty n d st).
Proof.
  unfold w_genfrac, genfrac. do 5 bind; try (bind || destruct sty; apply same_quiet).
  do 2 apply same_pack_bind. repeat (bind || apply same_delimited).
Qed.
Lemma same_fold {X V} (f : X -> V -> W V) g l : Forall (fun x => forall v, same (f x v) (g x v)) l -> forall v, same (w_fold f l v) (mfold g l v).
Proof. induction 1 as [|x l H _ IH]; intros v; cbn; [apply same_ret|]. apply same_bind; [apply H|exact IH]. Qed.
Definition walks (f : node -> @visitor A -> W (@visitor A)) (g : node -> @visitor A -> M (@visitor A)) (l : list node) : Prop :=
  Forall (fun x => forall v, same (f x v) (g x v)) l.
Lemma same_list f g l st m : walks f g l -> same (w_list be f l st m) (handle_list be g l st m).
Proof. intros H. unfold w_list, handle_list. bind; [now apply same_fold|bind]. Qed.
Definition inner_walks f g (l : list node) : Prop :=
  Forall (fun n => match n with NArg _ l _ | NOptArg _ l _ => walks f g l | _ => True end) l.
Lemma same_frac_args f g a b r sty l st m : inner_walks f g l -> same (w_frac_args be f a b r sty l st m) (handle_frac_args be g a b r sty l st m).
Proof.
  intros H. unfold w_frac_args, handle_frac_args. destruct l as [|[] [|[] l]]; try apply same_quiet.
  inversion H as [|? ? P H1]; subst. inversion H1 as [|? ? Q _]; subst.
  bind; [now apply same_list|]. bind; [now apply same_list|]. apply same_genfrac.
Qed.
Lemma same_sqrt_box r b st : same (w_sqrt_box be r b st) (sqrt_box be r b st).
Proof. unfold w_sqrt_box, sqrt_box. repeat (bind || apply same_ahc). Qed.
Lemma same_sqrt f g l st m : inner_walks f g l -> same (w_sqrt be f l st m) (handle_sqrt be g l st m).
Proof.
  intros H. unfold w_sqrt, handle_sqrt. destruct l as [|[] [|[] [|]]]; try apply same_quiet;
    inversion H as [|? ? P H1]; subst; try (inversion H1 as [|? ? Q _]; subst).
  all: bind; [now apply same_list|]; try apply same_quiet; try apply same_sqrt_box.
  bind; [now apply same_list|]. apply same_sqrt_box.
Qed.
Lemma same_overline_box b st : same (w_overline_box be b st) (overline_box be b st).
Proof. unfold w_overline_box, overline_box. repeat bind. Qed.
Lemma same_overline f g l st m : inner_walks f g l -> same (w_overline be f l st m) (handle_overline be g l st m).
Proof.
  intros H. unfold w_overline, handle_overline. destruct l as [|[] l]; try apply same_quiet. inversion H; subst.
  bind; [now apply same_list|apply same_overline_box].
Qed.
Lemma same_macro f g h pos name l st m : inner_walks f g l ->
  same (w_macro range be parse_float expr f h pos name l st m) (handle_macro range be parse_float expr g h pos name l st m).
Proof.
  intros H. destruct h; cbn [w_macro handle_macro]; try apply same_quiet; try apply same_symbol; try apply same_function;
    try (unfold w_frac, handle_frac, w_binom, handle_binom; try bind; try apply same_quiet; now apply same_frac_args).
  - now apply same_sqrt.
  - now apply same_overline.
Qed.
Lemma same_go n : (forall w v, same (w_go range be parse_float expr w n v) (go range be parse_float expr w n v)) /\
  match n with NArg _ l _ | NOptArg _ l _ => walks (w_go range be parse_float expr true) (go range be parse_float expr true) l | _ => True end.
Proof.
  assert (WK : forall w l, Forall (fun n => (forall w v, same (w_go range be parse_float expr w n v) (go range be parse_float expr w n v)) /\
    match n with NArg _ l _ | NOptArg _ l _ => walks (w_go range be parse_float expr true) (go range be parse_float expr true) l | _ => True end) l ->
    walks (w_go range be parse_float expr w) (go range be parse_float expr w) l).
  { intros w l H. unfold walks. eapply Forall_impl; [|exact H]. intros x [P _]. apply P. }
  induction n as [|l IH|nm l IH|a l b IH|a l b IH|p t|d a l b IH|p t|p t|p t|p x IH|p x IH] using node_ind'; (split; [intros w v; cbn [w_go go]|now auto]).
  all: try apply same_quiet.
  - apply same_if; [apply same_quiet|apply same_ret].
  - apply same_if; [apply same_fold, (WK true), IH|apply same_ret].
  - destruct nm as [[p name]|]; [|apply same_quiet]. bind; [bind|]. destruct x as [h|]; [|apply same_quiet]. bind; [|bind].
    apply same_macro. unfold inner_walks. eapply Forall_impl; [|exact IH]. intros x [_ P]. destruct x; auto.
  - bind; [|bind]. apply same_fold, (WK false), IH.
  - bind; [bind|]. bind; bind.
  - apply same_fold. apply Forall_forall. intros. bind; [apply same_symbol|bind].
  - bind; [|repeat bind]. bind; [bind|]. destruct x as [h|]; [|apply same_quiet]. bind; [|bind].
    destruct h; cbn [w_sym handle_sym]; try apply same_quiet. apply same_symbol.
Qed.
Lemma same_typeset l size dpi : same (w_typeset range be parse_float expr l size dpi) (typeset range be parse_float expr l size dpi).
Proof. unfold w_typeset, typeset. bind; [apply same_go|bind]. Qed.
End Same.

Lemma parse_log_fst {A : arith} {S : Type} U range (be : @backend A S) parse_float expr size dpi s :
  fst (parse_log U range be parse_float expr size dpi s) = mtex_parse U range be parse_float expr size dpi s.
Proof.
  unfold parse_log, mtex_parse. destruct (parse_expr U expr); try reflexivity. cbn [fst].
  f_equal. apply same_bind; [apply same_typeset|intros; apply same_ret].
Qed.
