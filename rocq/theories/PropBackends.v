(** C71, C72: the PDF writer and the renderer of the GUI. *)
From Coq Require Import ZArith String List Bool.
From Verif Require Import Arith Exact Box Ttf TtfSpec PropTtf Render Backends.
Import ListNotations.
Local Open Scope string_scope.
Local Open Scope list_scope.

(** ** C71 *)
(** What the calls on the PDF library write: files, each with the size of its pages
    (in points) and the number of them; there are no calls that draw. *)
Section Pdf.
Context {A : arith} {Fnt : Type}.
Notation F := (Arith.F A).
Record document : Type := mk_doc { doc_unit : string; doc_w : F; doc_h : F; doc_pages : nat }.
Definition pdf_do (st : option document * list (string * document)) (k : @pdf_call A) : option document * list (string * document) :=
  match k, fst st with
  | NewCustom u w h, _ => (Some (mk_doc u w h 0), snd st)
  | AddPage, Some d => (Some (mk_doc (doc_unit d) (doc_w d) (doc_h d) (S (doc_pages d))), snd st)
  | OutputFileAndClose f, Some d => (None, snd st ++ [(f, d)])
  | _, None => st
  end.
Definition files (l : list (@pdf_call A)) : list (string * document) := snd (fold_left pdf_do l (None, [])).

(** One file with one blank page of the given size, whatever is on the canvas. *)
Theorem C71_blank_page : forall name w h (c : @canvas A Fnt),
  files (pdf_write name w h c) = [(name, mk_doc "pt" w h 1)].
Proof.
  intros name w h c. unfold pdf_write.
  assert (E : flat_map pdf_op (cnv_ops c) = []) by (induction (cnv_ops c) as [|[] l IH]; [reflexivity| |]; exact IH).
  rewrite E. reflexivity.
Qed.
Theorem C71_canvas_ignored : forall name w h (c c' : @canvas A Fnt), pdf_write name w h c = pdf_write name w h c'.
Proof.
  intros name w h c c'. unfold pdf_write.
  assert (E : forall c : @canvas A Fnt, flat_map pdf_op (cnv_ops c) = [])
    by (clear; intros c; induction (cnv_ops c) as [|[] l IH]; [reflexivity| |]; exact IH).
  now rewrite !E.
Qed.
End Pdf.

(** ** C72 *)
Section Gio.
Context {A : arith} {Fnt : Type}.
Notation F := (Arith.F A).
Variable f32 : Type.
Variable to32 : F -> f32.
Variable add32 : f32 -> f32 -> f32.
Notation point := (f32 * f32)%type.

(** What a list of gio operations shows.  The transformation is the list of the
    offsets in force, outermost first; the clip area is the intersection of outlines, each
    under the offsets that were in force when it was added. *)
Definition area : Type := list (list point * list (@seg f32)).
Inductive shown : Type :=
  | Label (at_ : list point) (clip : area) (px : f32) (txt : string) (italic : bool)
  | Ink (clip : area).
Record view : Type := mk_view {
  w_at : list point; w_clip : area; w_saved : list (nat * (list point * area)); w_marks : list shown }.
Definition recall (id : nat) (l : list (nat * (list point * area))) : option (list point * area) :=
  option_map snd (List.find (fun p => Nat.eqb (fst p) id) l).
Definition look (v : view) (k : @gop f32) : view :=
  match v with
  | mk_view t c s m =>
    match k with
    | GSave id => mk_view t c ((id, (t, c)) :: s) m
    | GLoad id => match recall id s with Some (t', c') => mk_view t' c' s m | None => v end
    | GOffset p => mk_view (t ++ [p]) c s m
    | GLabel px txt it => mk_view t c s (m ++ [Label t c px txt it])
    | GClip path => mk_view t (c ++ [(t, path)]) s m
    | GFill => mk_view t c s (m ++ [Ink c])
    end
  end.
Definition sees (l : list (@gop f32)) (v : view) : view := fold_left look l v.

(** [m] shows the operation [o] at [k] times its coordinates inside what is given by
    [t] and [c]: a label whose upper left corner is one font size above the glyph's
    baseline, in italics if the glyph is slanted; or the ink of a rectangle, moved by
    [offset]. *)
Definition moved (offset : point) (x y : F) : point := (add32 (to32 x) (fst offset), add32 (to32 y) (snd offset)).
Definition shows (offset : point) (k : F) (t : list point) (c : area) (o : @op A Fnt) (m : shown) : Prop :=
  match o with
  | GlyphOp x y g =>
    m = Label (t ++ [(to32 (fmul A x k), to32 (fmul A (fsub A y (gl_size g)) k))]) c (to32 (fmul A (gl_size g) k))
          (gl_sym g) (m_slanted (gl_met g))
  | RectOp x1 y1 x2 y2 =>
    let corner x y := moved offset (fmul A x k) (fmul A y k) in
    m = Ink (c ++ [(t, [PMoveTo (corner x1 y1); PLineTo (corner x2 y1); PLineTo (corner x2 y2); PLineTo (corner x1 y2); PClose])])
  end.

Lemma recall_hd id x l : recall id ((id, x) :: l) = Some x.
Proof. unfold recall. cbn. now rewrite PeanoNat.Nat.eqb_refl. Qed.

Lemma gio_op_shows offset k (t : @op A Fnt) o : exists l, o_list (gio_op f32 to32 add32 offset k o t) = o_list o ++ l /\
  forall v, exists m s, shows offset k (w_at v) (w_clip v) t m /\ sees l v = mk_view (w_at v) (w_clip v) s (w_marks v ++ [m]).
Proof.
  destruct t as [x y g|x1 y1 x2 y2]; cbn [gio_op gio_glyph gio_rect gsave emit o_list o_saved].
  - eexists. split; [rewrite <- app_assoc; reflexivity|]. intros [a c s m]. cbn [w_at w_clip w_marks]. do 2 eexists. split; [reflexivity|].
    unfold sees. cbn [app fold_left look]. rewrite recall_hd. reflexivity.
  - eexists. split; [rewrite <- app_assoc; reflexivity|]. intros [a c s m]. cbn [w_at w_clip w_marks]. do 2 eexists. split; [reflexivity|].
    unfold sees. cbn [app fold_left look]. rewrite recall_hd. reflexivity.
Qed.

(** The operations of the canvas are shown in order, one mark each, all relative to
    the same origin and clip area, which are in force again afterwards. *)
Theorem C72_gio : forall offset (c : @dst_call A Fnt) o, exists l,
  o_list (gio_render f32 to32 add32 offset c o) = o_list o ++ l /\
  forall v, exists ms,
    Forall2 (shows offset (fdiv A (d_dpi c) (fofZ A 72)) (w_at v) (w_clip v)) (d_ops c) ms /\
    w_marks (sees l v) = w_marks v ++ ms /\ w_at (sees l v) = w_at v /\ w_clip (sees l v) = w_clip v.
Proof.
  intros offset c o. unfold gio_render. generalize (fdiv A (d_dpi c) (fofZ A 72)). intros k. revert o.
  induction (d_ops c) as [|t ts IH]; intros o; cbn [fold_left].
  - exists []. split; [now rewrite app_nil_r|]. intros v. exists []. split; [constructor|]. split; [now rewrite app_nil_r|]. split; reflexivity.
  - destruct (gio_op_shows offset k t o) as (l1 & E1 & H1). destruct (IH (gio_op f32 to32 add32 offset k o t)) as (l2 & E2 & H2).
    exists (l1 ++ l2). split; [now rewrite E2, E1, <- app_assoc|]. intros v.
    destruct (H1 v) as (m & s & M1 & V1). destruct (H2 (sees l1 v)) as (ms & M2 & W1 & W2 & W3).
    unfold sees in *. rewrite fold_left_app. rewrite V1 in *. cbn [w_at w_clip w_marks] in *.
    exists (m :: ms). split; [constructor; assumption|]. rewrite W1, W2, W3. split; [now rewrite <- app_assoc|]. split; reflexivity.
Qed.
(** It saves as many states as there are operations. *)
Theorem C72_saves : forall offset (c : @dst_call A Fnt) o,
  o_saved (gio_render f32 to32 add32 offset c o) = (o_saved o + length (d_ops c))%nat.
Proof.
  intros offset c o. unfold gio_render. generalize (fdiv A (d_dpi c) (fofZ A 72)). intros k. revert o.
  induction (d_ops c) as [|t ts IH]; intros o; cbn [fold_left length].
  - now rewrite PeanoNat.Nat.add_0_r.
  - rewrite IH. destruct t; cbn [gio_op gio_glyph gio_rect gsave emit o_list o_saved]; now rewrite PeanoNat.Nat.add_succ_r.
Qed.
End Gio.

(** A glyph and a bar at 144 dpi, inside an area moved by (5, 5); float32 is replaced by
    the rounded exact number. *)
Definition pts (n : Z) : Arith.F exact := fofZ exact n.
Definition gio_case : list (@shown Z) :=
  let g := @mk_glyph exact unit (Some tt) (pts 10) "Toy" (mk_metrics (pts 1) (pts 1) (pts 1) (pts 1) (pts 1) (pts 1) (pts 1) (pts 1) true) "x" 3 (pts 0) in
  let c := mk_dst (pts 1) (pts 1) (pts 144) [GlyphOp (pts 7) (pts 30) g; RectOp (pts 0) (pts 31) (pts 9) (pts 32)] in
  w_marks Z (sees Z (o_list (gio_render Z (fround exact) Z.add (-1, -3)%Z c (mk_gops [GOffset (5, 5)%Z] 0))) (mk_view Z [] [] [] [])).
Example C72_case : gio_case =
  [Label Z [(5, 5); (14, 40)]%Z [] 20%Z "x" true;
   Ink Z [([(5, 5)], [PMoveTo (-1, 59); PLineTo (17, 59); PLineTo (17, 61); PLineTo (-1, 61); PClose])]%Z].
Proof. vm_compute. reflexivity. Qed.
Print Assumptions C71_blank_page. Print Assumptions C72_gio.
