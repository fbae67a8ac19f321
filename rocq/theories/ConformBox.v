(** Generated by tools/genconform.py from the tests of /repo: the model gives the
    results the tests of the code expect. tex/box_test.go *)
From Coq Require Import ZArith String Ascii List Bool Floats.
From Verif Require Import Utf8 Token Ast Parser Symbols Arith Box Ship Mtex MtexFacts.
Import ListNotations.
Local Open Scope string_scope.
Local Open Scope list_scope.
Local Open Scope Z_scope.
Set Warnings "-inexact-float".

(** internal/fakebackend/fakebackend_fonts_gen.go: the entries used here *)
Definition fonts_db : list (string * bool * (string * float * string) * @metrics float64) := [
  ("a", true, ("default", 0x1.8p+3%float, "rm"), mk_metrics 0x1.d6ap+2%float 0x1.b9p+2%float 0x1.62p+2%float 0x1.7p-1%float 0x1.91p+2%float (-0x1.6p-3)%float 0x1.aep+2%float 0x1.aep+2%float false);
  ("A", true, ("default", 0x1.8p+3%float, "rm"), mk_metrics 0x1.06bp+3%float 0x1.18p+3%float 0x1.008p+3%float 0x1.8p-4%float 0x1.038p+3%float 0x0p+0%float 0x1.18p+3%float 0x1.18p+3%float false);
  ("V", true, ("default", 0x1.8p+3%float, "rm"), mk_metrics 0x1.06bp+3%float 0x1.18p+3%float 0x1.008p+3%float 0x1.8p-4%float 0x1.038p+3%float 0x0p+0%float 0x1.18p+3%float 0x1.18p+3%float false);
  ("\sum", true, ("default", 0x1.8p+3%float, "rm"), mk_metrics 0x1.6ddp+3%float 0x1.efp+3%float 0x1.5c8p+3%float 0x1.ap-3%float 0x1.63p+3%float (-0x1.a2p+1)%float 0x1.868p+3%float 0x1.868p+3%float false);
  ("\sigma", true, ("default", 0x1.8p+3%float, "rm"), mk_metrics 0x1.e6cp+2%float 0x1.afp+2%float 0x1.a5p+2%float 0x1.5p-1%float 0x1.dp+2%float (-0x1.6p-3)%float 0x1.a4p+2%float 0x1.a4p+2%float false);
  ("\oint", true, ("default", 0x1.8p+3%float, "rm"), mk_metrics 0x1.1acp+3%float 0x1.074p+4%float 0x1.bap+2%float 0x1.fp-1%float 0x1.f8p+2%float (-0x1.cep+1)%float 0x1.9bp+3%float 0x1.9bp+3%float true);
  ("é", true, ("default", 0x1.8p+3%float, "rm"), mk_metrics 0x1.d88p+2%float 0x1.388p+3%float 0x1.85p+2%float 0x1.5p-1%float 0x1.bp+2%float (-0x1.6p-3)%float 0x1.33p+3%float 0x1.33p+3%float false);
  (" ", true, ("default", 0x1.8p+3%float, "rm"), mk_metrics 0x1.e84p+1%float 0x0p+0%float 0x0p+0%float 0x0p+0%float 0x0p+0%float 0x0p+0%float 0x0p+0%float 0x0p+0%float false);
  ("(", true, ("default", 0x1.8p+3%float, "rm"), mk_metrics 0x1.2bap+2%float 0x1.56p+3%float 0x1.58p+1%float 0x1.08p+0%float 0x1.dcp+1%float (-0x1.94p+0)%float 0x1.238p+3%float 0x1.238p+3%float false);
  ("a", false, ("default", 0x1.8p+3%float, "rm"), mk_metrics 0x1.d6ap+2%float 0x1.b9p+2%float 0x1.62p+2%float 0x1.7p-1%float 0x1.91p+2%float (-0x1.6p-3)%float 0x1.aep+2%float 0x1.aep+2%float false);
  ("A", false, ("default", 0x1.8p+3%float, "rm"), mk_metrics 0x1.06bp+3%float 0x1.18p+3%float 0x1.008p+3%float 0x1.8p-4%float 0x1.038p+3%float 0x0p+0%float 0x1.18p+3%float 0x1.18p+3%float false);
  ("V", false, ("default", 0x1.8p+3%float, "rm"), mk_metrics 0x1.06bp+3%float 0x1.18p+3%float 0x1.008p+3%float 0x1.8p-4%float 0x1.038p+3%float 0x0p+0%float 0x1.18p+3%float 0x1.18p+3%float false);
  ("\sum", false, ("default", 0x1.8p+3%float, "rm"), mk_metrics 0x1.6ddp+3%float 0x1.efp+3%float 0x1.5c8p+3%float 0x1.ap-3%float 0x1.63p+3%float (-0x1.a2p+1)%float 0x1.868p+3%float 0x1.868p+3%float false);
  ("\sigma", false, ("default", 0x1.8p+3%float, "rm"), mk_metrics 0x1.e6cp+2%float 0x1.afp+2%float 0x1.a5p+2%float 0x1.5p-1%float 0x1.dp+2%float (-0x1.6p-3)%float 0x1.a4p+2%float 0x1.a4p+2%float false);
  ("\oint", false, ("default", 0x1.8p+3%float, "rm"), mk_metrics 0x1.1acp+3%float 0x1.074p+4%float 0x1.bap+2%float 0x1.fp-1%float 0x1.f8p+2%float (-0x1.cep+1)%float 0x1.9bp+3%float 0x1.9bp+3%float true);
  ("é", false, ("default", 0x1.8p+3%float, "rm"), mk_metrics 0x1.d88p+2%float 0x1.388p+3%float 0x1.85p+2%float 0x1.5p-1%float 0x1.bp+2%float (-0x1.6p-3)%float 0x1.33p+3%float 0x1.33p+3%float false);
  (" ", false, ("default", 0x1.8p+3%float, "rm"), mk_metrics 0x1.e84p+1%float 0x0p+0%float 0x0p+0%float 0x0p+0%float 0x0p+0%float 0x0p+0%float 0x0p+0%float 0x0p+0%float false);
  ("(", false, ("default", 0x1.8p+3%float, "rm"), mk_metrics 0x1.2bap+2%float 0x1.56p+3%float 0x1.58p+1%float 0x1.08p+0%float 0x1.dcp+1%float (-0x1.94p+0)%float 0x1.238p+3%float 0x1.238p+3%float false);
  ("(", true, ("default", 0x1.9ae42785d6ae4p+3%float, "rm"), mk_metrics 0x1.404d4p+2%float 0x1.6d8p+3%float 0x1.7p+1%float 0x1.1cp+0%float 0x1.fep+1%float (-0x1.bp+0)%float 0x1.378p+3%float 0x1.378p+3%float false);
  ("(", true, ("default", 0x1.9603d980f6604p+3%float, "rm"), mk_metrics 0x1.3cca8p+2%float 0x1.698p+3%float 0x1.6cp+1%float 0x1.18p+0%float 0x1.f8p+1%float (-0x1.acp+0)%float 0x1.34p+3%float 0x1.34p+3%float false);
  ("(", false, ("default", 0x1.9ae42785d6ae4p+3%float, "rm"), mk_metrics 0x1.404d4p+2%float 0x1.6d8p+3%float 0x1.7p+1%float 0x1.1cp+0%float 0x1.fep+1%float (-0x1.bp+0)%float 0x1.378p+3%float 0x1.378p+3%float false);
  ("(", false, ("default", 0x1.9603d980f6604p+3%float, "rm"), mk_metrics 0x1.3cca8p+2%float 0x1.698p+3%float 0x1.6cp+1%float 0x1.18p+0%float 0x1.f8p+1%float (-0x1.acp+0)%float 0x1.34p+3%float 0x1.34p+3%float false)].
(** fakebackend_xheight_gen.go *)
Definition xhs_db : list (string * float * float * float) := [
  ("default", 0x1.4p+3%float, 0x1.2p+6%float, 0x1.5ep+2%float);
  ("default", 0x1.8p+3%float, 0x1.2p+6%float, 0x1.a4p+2%float);
  ("regular", 0x1.4p+3%float, 0x1.2p+6%float, 0x1.5ep+2%float);
  ("regular", 0x1.8p+3%float, 0x1.2p+6%float, 0x1.a4p+2%float);
  ("rm", 0x1.4p+3%float, 0x1.2p+6%float, 0x1.5ep+2%float);
  ("rm", 0x1.8p+3%float, 0x1.2p+6%float, 0x1.a4p+2%float);
  ("it", 0x1.4p+3%float, 0x1.2p+6%float, 0x1.5ep+2%float);
  ("it", 0x1.8p+3%float, 0x1.2p+6%float, 0x1.a4p+2%float)].
(** fakebackend_kerns_gen.go: the nonzero entries (an absent one counts as 0) *)
Definition kerns_db : list ((string * float * string) * string * string * float) := [
  (("default", 0x1.4p+3%float, "regular"), ".", "2", (-0x1p-1)%float);
  (("default", 0x1.8p+3%float, "regular"), ".", "2", (-0x1.4p-1)%float);
  (("default", 0x1.4p+3%float, "rm"), ".", "2", (-0x1p-1)%float);
  (("default", 0x1.8p+3%float, "rm"), ".", "2", (-0x1.4p-1)%float);
  (("it", 0x1.4p+3%float, "it"), ".", "2", (-0x1p-1)%float);
  (("it", 0x1.8p+3%float, "it"), ".", "2", (-0x1.4p-1)%float)].
Definition same_font (k : string * float * string) (f : @font float64) : bool :=
  let '(n, s, t) := k in String.eqb n (f_name f) && PrimFloat.eqb s (f_size f) && String.eqb t (f_type f).
(** internal/fakebackend/fakebackend.go:41-99 *)
Definition fake : @backend float64 unit := {|
  be_kern := fun f1 s1 f2 s2 dpi =>
    if String.eqb (f_name f1) (f_name f2) && PrimFloat.eqb (f_size f1) (f_size f2) && String.eqb (f_type f1) (f_type f2)
    then mret 0%float
    else mret (match List.find (fun e => let '(k, a, b, _) := e in same_font k f1 && String.eqb a s1 && String.eqb b s2) kerns_db with
               | Some (_, _, _, k) => k | None => 0%float end);
  be_metrics := fun s f dpi m =>
    if PrimFloat.eqb dpi 72%float then
      match List.find (fun e => let '(a, b, k, _) := e in String.eqb a s && Bool.eqb b m && same_font k f) fonts_db with
      | Some (_, _, _, x) => mret x | None => mpanic "no pre-generated metrics" end
    else mpanic "no pre-generated metrics";
  be_xheight := fun f dpi =>
    match List.find (fun e => let '(n, s, d, _) := e in String.eqb n (f_name f) && PrimFloat.eqb s (f_size f) && PrimFloat.eqb d dpi) xhs_db with
    | Some (_, _, _, x) => mret x | None => mpanic "no pre-generated xheight" end;
  be_underline := fun f dpi => mret ((0x1p-4 * f_size f * dpi) / 72)%float |}.

Definition st12 : @state float64 := mk_state (mk_font "default" "rm" 12%float) 72%float.
Definition seq (l : list (M unit (@tnode float64))) : M unit (list tnode) := mmap (fun m => m) l.
Definition glue_named (s : string) : M unit (@tnode float64) :=
  match new_glue s with Some g => mret (TGlue g) | None => mpanic "glue" end.
Local Open Scope float_scope.
(** Width, height and depth equal the expected ones (box_test.go cmpEq). *)
Definition dims_are (m : M unit (@tnode float64)) (w h d : float) : bool :=
  match m tt with LOk (t, _) => PrimFloat.eqb (t_width t) w && PrimFloat.eqb (t_height t) h && PrimFloat.eqb (t_depth t) d | LPanic _ => false end.
Definition ships_to (m : M unit (@tnode float64)) (s : Z) (v h : float) : bool :=
  match m tt with
  | LOk (t, _) =>
    match ship_call 0 0 t with
    | LOk (_, st) => Z.eqb (s_s st) s && PrimFloat.eqb (s_v st) v && PrimFloat.eqb (s_h st) h
    | LPanic _ => false
    end
  | LPanic _ => false
  end.

(** tex/box_test.go TestBox, case 0 *)
Example box_0 : dims_are (mret (hbox 0x1.4p+3%float))
  0x1.4p+3%float 0x0p+0%float 0x0p+0%float = true.
Proof. vm_compute. reflexivity. Qed.

(** tex/box_test.go TestBox, case 1 *)
Example box_1 : dims_are (mret (vbox 0x1.4p+3%float 0x1.4p+4%float))
  0x0p+0%float 0x1.4p+3%float 0x1.4p+4%float = true.
Proof. vm_compute. reflexivity. Qed.

(** tex/box_test.go TestBox, case 2 *)
Example box_2 : dims_are ((l <- (seq [mret (vbox 0x1.4p+3%float 0x1.4p+4%float); mret (hbox 0x1.ep+4%float)]) ;; hlist_of fake l false))
  0x1.ep+4%float 0x1.4p+3%float 0x1.4p+4%float = true.
Proof. vm_compute. reflexivity. Qed.

(** tex/box_test.go TestBox, case 3 *)
Example box_3 : dims_are ((l <- (seq [mret (vbox 0x1.4p+3%float 0x1.4p+4%float); mret (hbox 0x1.ep+4%float)]) ;; hlist_of fake l true))
  0x1.ep+4%float 0x1.4p+3%float 0x1.4p+4%float = true.
Proof. vm_compute. reflexivity. Qed.

(** tex/box_test.go TestBox, case 4 *)
Example box_4 : dims_are ((l <- (seq [mret (vbox 0x1.4p+3%float 0x1.4p+4%float); mret (hbox 0x1.ep+4%float)]) ;; vlist_of l))
  0x1.ep+4%float 0x1.ep+4%float 0x0p+0%float = true.
Proof. vm_compute. reflexivity. Qed.

(** tex/box_test.go TestBox, case 5 *)
Example box_5 : dims_are ((l <- (seq [mret (vbox 0x1.4p+3%float 0x1.4p+4%float); mret (hbox 0x1.ep+4%float); (l <- (seq [mret (hbox 0x1.6p+3%float); mret (hbox 0x1.6p+4%float)]) ;; hlist_of fake l false)]) ;; hlist_of fake l false))
  0x1.f8p+5%float 0x1.4p+3%float 0x1.4p+4%float = true.
Proof. vm_compute. reflexivity. Qed.

(** tex/box_test.go TestBox, case 6 *)
Example box_6 : dims_are ((l <- (seq [mret (vbox 0x1.4p+3%float 0x1.4p+4%float); mret (hbox 0x1.ep+4%float); (l <- (seq [mret (hbox 0x1.6p+3%float); mret (hbox 0x1.6p+4%float)]) ;; hlist_of fake l false); (l <- (seq [mret (hbox 0x1.ep+3%float); mret (vbox 0x1.6p+3%float 0x1.6p+4%float)]) ;; vlist_of l)]) ;; hlist_of fake l false))
  0x1.38p+6%float 0x1.6p+3%float 0x1.6p+4%float = true.
Proof. vm_compute. reflexivity. Qed.

(** tex/box_test.go TestBox, case 7 *)
Example box_7 : dims_are ((l <- (seq [mret (vbox 0x1.4p+3%float 0x1.4p+4%float); mret (new_kern (A:=float64) 0x1.ep+3%float); mret (hbox 0x1.ep+4%float)]) ;; hlist_of fake l true))
  0x1.68p+5%float 0x1.4p+3%float 0x1.4p+4%float = true.
Proof. vm_compute. reflexivity. Qed.

(** tex/box_test.go TestBox, case 8 *)
Example box_8 : dims_are ((l <- (seq [mret (vbox 0x1.4p+3%float 0x1.4p+4%float); (l <- (seq [mret (vbox 0x1.6p+3%float 0x1.6p+4%float); mret (new_kern (A:=float64) 0x1.4p+3%float); mret (hbox 0x1.4p+5%float)]) ;; vlist_of l); (l <- (seq [mret (vbox 0x1.4p+3%float 0x1.4p+4%float); mret (new_kern (A:=float64) 0x1.ep+3%float); mret (hbox 0x1.ep+4%float)]) ;; hlist_of fake l true); mret (hbox 0x1.ep+4%float)]) ;; vlist_of l))
  0x1.68p+5%float 0x1.9cp+6%float 0x0p+0%float = true.
Proof. vm_compute. reflexivity. Qed.

(** tex/box_test.go TestBox, case 9 *)
Example box_9 : dims_are (mret (new_kern (A:=float64) 0x1.4p+3%float))
  0x1.4p+3%float 0x0p+0%float 0x0p+0%float = true.
Proof. vm_compute. reflexivity. Qed.

(** tex/box_test.go TestBox, case 10 *)
Example box_10 : dims_are (glue_named "fil")
  0x0p+0%float 0x0p+0%float 0x0p+0%float = true.
Proof. vm_compute. reflexivity. Qed.

(** tex/box_test.go TestBox, case 11 *)
Example box_11 : dims_are (glue_named "fill")
  0x0p+0%float 0x0p+0%float 0x0p+0%float = true.
Proof. vm_compute. reflexivity. Qed.

(** tex/box_test.go TestBox, case 12 *)
Example box_12 : dims_are (glue_named "filll")
  0x0p+0%float 0x0p+0%float 0x0p+0%float = true.
Proof. vm_compute. reflexivity. Qed.

(** tex/box_test.go TestBox, case 13 *)
Example box_13 : dims_are (glue_named "neg_fil")
  0x0p+0%float 0x0p+0%float 0x0p+0%float = true.
Proof. vm_compute. reflexivity. Qed.

(** tex/box_test.go TestBox, case 14 *)
Example box_14 : dims_are (glue_named "neg_fill")
  0x0p+0%float 0x0p+0%float 0x0p+0%float = true.
Proof. vm_compute. reflexivity. Qed.

(** tex/box_test.go TestBox, case 15 *)
Example box_15 : dims_are (glue_named "neg_filll")
  0x0p+0%float 0x0p+0%float 0x0p+0%float = true.
Proof. vm_compute. reflexivity. Qed.

(** tex/box_test.go TestBox, case 16 *)
Example box_16 : dims_are (glue_named "empty")
  0x0p+0%float 0x0p+0%float 0x0p+0%float = true.
Proof. vm_compute. reflexivity. Qed.

(** tex/box_test.go TestBox, case 17 *)
Example box_17 : dims_are (glue_named "ss")
  0x0p+0%float 0x0p+0%float 0x0p+0%float = true.
Proof. vm_compute. reflexivity. Qed.

(** tex/box_test.go TestBox, case 18 *)
Example box_18 : dims_are ((l <- (seq [mret (new_kern (A:=float64) 0x1.4p+3%float); mret (vbox 0x1.4p+3%float 0x1.4p+4%float); mret (new_kern (A:=float64) 0x1.4p+3%float); (l <- (seq [mret (new_kern (A:=float64) 0x1.4p+3%float); mret (vbox 0x1.6p+3%float 0x1.6p+4%float); mret (new_kern (A:=float64) 0x1.4p+3%float); mret (hbox 0x1.4p+5%float); mret (new_kern (A:=float64) 0x1.4p+3%float)]) ;; vlist_of l); mret (new_kern (A:=float64) 0x1.4p+3%float); (l <- (seq [mret (new_kern (A:=float64) 0x1.4p+3%float); mret (vbox 0x1.4p+3%float 0x1.4p+4%float); mret (new_kern (A:=float64) 0x1.ep+3%float); mret (hbox 0x1.ep+4%float); mret (new_kern (A:=float64) 0x1.4p+3%float)]) ;; hlist_of fake l true); mret (new_kern (A:=float64) 0x1.4p+3%float); mret (hbox 0x1.ep+4%float); mret (new_kern (A:=float64) 0x1.4p+3%float)]) ;; vlist_of l))
  0x1.04p+6%float 0x1.5ap+7%float 0x0p+0%float = true.
Proof. vm_compute. reflexivity. Qed.

(** tex/box_test.go TestBox, case 19 *)
Example box_19 : dims_are ((l <- (seq [mret (new_kern (A:=float64) 0x1.4p+3%float); mret (vbox 0x1.4p+3%float 0x1.4p+4%float); glue_named "fill"; mret (new_kern (A:=float64) 0x1.4p+3%float); (l <- (seq [mret (new_kern (A:=float64) 0x1.4p+3%float); mret (vbox 0x1.6p+3%float 0x1.6p+4%float); mret (new_kern (A:=float64) 0x1.4p+3%float); glue_named "neg_fill"; mret (hbox 0x1.4p+5%float); mret (new_kern (A:=float64) 0x1.4p+3%float)]) ;; vlist_of l); mret (new_kern (A:=float64) 0x1.4p+3%float); (l <- (seq [mret (new_kern (A:=float64) 0x1.4p+3%float); mret (vbox 0x1.4p+3%float 0x1.4p+4%float); glue_named "empty"; mret (new_kern (A:=float64) 0x1.ep+3%float); mret (hbox 0x1.ep+4%float); mret (new_kern (A:=float64) 0x1.4p+3%float)]) ;; hlist_of fake l true); mret (new_kern (A:=float64) 0x1.4p+3%float); glue_named "ss"; mret (hbox 0x1.ep+4%float); mret (new_kern (A:=float64) 0x1.4p+3%float)]) ;; vlist_of l))
  0x1.04p+6%float 0x1.5ap+7%float 0x0p+0%float = true.
Proof. vm_compute. reflexivity. Qed.

(** tex/box_test.go TestBox, case 20 *)
Example box_20 : dims_are ((l <- (seq [mret (new_kern (A:=float64) 0x1.4p+3%float); glue_named "fil"; mret (vbox 0x1.4p+3%float 0x1.4p+4%float); mret (hbox 0x1.ep+4%float); glue_named "fil"; (l <- (seq [mret (hbox 0x1.6p+3%float); glue_named "filll"; mret (hbox 0x1.6p+4%float)]) ;; hlist_of fake l true); (l <- (seq [mret (hbox 0x1.ep+3%float); glue_named "neg_filll"; mret (vbox 0x1.6p+3%float 0x1.6p+4%float)]) ;; vlist_of l)]) ;; hlist_of fake l true))
  0x1.6p+6%float 0x1.6p+3%float 0x1.6p+4%float = true.
Proof. vm_compute. reflexivity. Qed.

(** tex/box_test.go TestBox, case 21 *)
Example box_21 : dims_are ((l <- (seq [mret (vbox 0x1.4p+3%float 0x1.4p+4%float); mret (hbox 0x1.ep+4%float); mret (new_kern (A:=float64) 0x1.ep+3%float); mret (hbox 0x1.4p+5%float); mret (vbox 0x1.4p+4%float 0x1.4p+3%float)]) ;; hcentered fake l))
  0x1.54p+6%float 0x1.4p+4%float 0x1.4p+4%float = true.
Proof. vm_compute. reflexivity. Qed.

(** tex/box_test.go TestBox, case 22 *)
Example box_22 : dims_are ((l <- (seq [mret (vbox 0x1.4p+3%float 0x1.4p+4%float); mret (hbox 0x1.ep+4%float); mret (new_kern (A:=float64) 0x1.ep+3%float); mret (hbox 0x1.4p+5%float); mret (vbox 0x1.4p+4%float 0x1.4p+3%float)]) ;; vcentered l))
  0x1.4p+5%float 0x1.2cp+6%float 0x0p+0%float = true.
Proof. vm_compute. reflexivity. Qed.

(** tex/box_test.go TestBox, case 23 *)
Example box_23 : dims_are ((c <- new_char fake "a" st12 false ;; mret (TChar c)))
  0x1.62p+2%float 0x1.aep+2%float 0x1.6p-3%float = true.
Proof. vm_compute. reflexivity. Qed.

(** tex/box_test.go TestBox, case 24 *)
Example box_24 : dims_are ((c <- new_char fake "a" st12 true ;; mret (TChar c)))
  0x1.62p+2%float 0x1.aep+2%float 0x1.6p-3%float = true.
Proof. vm_compute. reflexivity. Qed.

(** tex/box_test.go TestBox, case 25 *)
Example box_25 : dims_are ((c <- new_char fake " " st12 false ;; mret (TChar c)))
  0x1.e84p+1%float 0x0p+0%float 0x0p+0%float = true.
Proof. vm_compute. reflexivity. Qed.

(** tex/box_test.go TestBox, case 26 *)
Example box_26 : dims_are ((c <- new_char fake " " st12 true ;; mret (TChar c)))
  0x1.e84p+1%float 0x0p+0%float 0x0p+0%float = true.
Proof. vm_compute. reflexivity. Qed.

(** tex/box_test.go TestBox, case 27 *)
Example box_27 : dims_are ((c <- new_char fake "\sigma" st12 true ;; mret (TChar c)))
  0x1.a5p+2%float 0x1.a4p+2%float 0x1.6p-3%float = true.
Proof. vm_compute. reflexivity. Qed.

(** tex/box_test.go TestBox, case 28 *)
Example box_28 : dims_are ((c <- new_char fake "\sum" st12 true ;; mret (TChar c)))
  0x1.5c8p+3%float 0x1.868p+3%float 0x1.a2p+1%float = true.
Proof. vm_compute. reflexivity. Qed.

(** tex/box_test.go TestBox, case 29 *)
Example box_29 : dims_are ((c <- new_char fake "\oint" st12 true ;; mret (TChar c)))
  0x1.bap+2%float 0x1.9bp+3%float 0x1.cep+1%float = true.
Proof. vm_compute. reflexivity. Qed.

(** tex/box_test.go TestBox, case 30 *)
Example box_30 : dims_are ((c <- new_accent fake "é" st12 false ;; mret (TAccent c)))
  0x1.86p+2%float 0x1.388p+3%float 0x0p+0%float = true.
Proof. vm_compute. reflexivity. Qed.

(** tex/box_test.go TestBox, case 31 *)
Example box_31 : dims_are (hrule fake st12 (-0x1p+0)%float)
  infinity 0x1.8p-2%float 0x1.8p-2%float = true.
Proof. vm_compute. reflexivity. Qed.

(** tex/box_test.go TestBox, case 32 *)
Example box_32 : dims_are (hrule fake st12 0x1.4p+3%float)
  infinity 0x1.4p+2%float 0x1.4p+2%float = true.
Proof. vm_compute. reflexivity. Qed.

(** tex/box_test.go TestBox, case 33 *)
Example box_33 : dims_are (vrule fake st12)
  0x1.8p-1%float infinity infinity = true.
Proof. vm_compute. reflexivity. Qed.

(** tex/box_test.go TestBox, case 34 *)
Example box_34 : dims_are ((l <- (seq [mret (new_kern (A:=float64) 0x1.4p+3%float); (c <- new_char fake "A" st12 false ;; mret (TChar c)); (c <- new_char fake "V" st12 false ;; mret (TChar c)); (c <- new_char fake "A" st12 false ;; mret (TChar c)); (c <- new_char fake "V" st12 false ;; mret (TChar c)); (c <- new_accent fake "é" st12 false ;; mret (TAccent c)); (c <- new_accent fake "é" st12 false ;; mret (TAccent c)); (c <- new_char fake "A" st12 false ;; mret (TChar c)); (c <- new_char fake "\sigma" st12 true ;; mret (TChar c)); (c <- new_char fake "\sum" st12 true ;; mret (TChar c)); (c <- new_char fake "\sigma" st12 true ;; mret (TChar c)); mret (new_kern (A:=float64) 0x1.4p+3%float)]) ;; hlist_of fake l true))
  0x1.99dp+6%float 0x1.868p+3%float 0x1.a2p+1%float = true.
Proof. vm_compute. reflexivity. Qed.

(** tex/box_test.go TestBox, case 35 *)
Example box_35 : dims_are ((l <- (seq [mret (new_kern (A:=float64) 0x1.4p+3%float); (c <- new_char fake "A" st12 false ;; mret (TChar c)); (c <- new_char fake "V" st12 false ;; mret (TChar c)); (c <- new_char fake "A" st12 false ;; mret (TChar c)); (c <- new_char fake "V" st12 false ;; mret (TChar c)); (c <- new_accent fake "é" st12 false ;; mret (TAccent c)); (c <- new_accent fake "é" st12 false ;; mret (TAccent c)); (c <- new_char fake "A" st12 false ;; mret (TChar c)); (c <- new_char fake "\sigma" st12 true ;; mret (TChar c)); (c <- new_char fake "\sum" st12 true ;; mret (TChar c)); (c <- new_char fake "\sigma" st12 true ;; mret (TChar c)); mret (new_kern (A:=float64) 0x1.4p+3%float)]) ;; hlist_of fake l false))
  0x1.814p+6%float 0x1.868p+3%float 0x1.a2p+1%float = true.
Proof. vm_compute. reflexivity. Qed.

(** tex/box_test.go TestBox, case 36 *)
Example box_36 : dims_are ((l <- (seq [mret (new_kern (A:=float64) 0x1.4p+3%float); (c <- new_char fake "\sigma" st12 true ;; mret (TChar c)); hrule fake st12 (-0x1p+0)%float; (c <- new_char fake "\sum" st12 true ;; mret (TChar c)); mret (new_kern (A:=float64) 0x1.4p+3%float)]) ;; hlist_of fake l true))
  infinity 0x1.868p+3%float 0x1.a2p+1%float = true.
Proof. vm_compute. reflexivity. Qed.

(** tex/box_test.go TestBox, case 37 *)
Example box_37 : dims_are ((l <- (seq [mret (new_kern (A:=float64) 0x1.4p+3%float); (c <- new_char fake "\sigma" st12 true ;; mret (TChar c)); hrule fake st12 (-0x1p+0)%float; (c <- new_char fake "\sum" st12 true ;; mret (TChar c)); mret (new_kern (A:=float64) 0x1.4p+3%float)]) ;; hlist_of fake l false))
  infinity 0x1.868p+3%float 0x1.a2p+1%float = true.
Proof. vm_compute. reflexivity. Qed.

(** tex/box_test.go TestBox, case 38 *)
Example box_38 : dims_are ((l <- (seq [mret (new_kern (A:=float64) 0x1.4p+3%float); (c <- new_char fake "\sigma" st12 true ;; mret (TChar c)); vrule fake st12; (c <- new_char fake "\sum" st12 true ;; mret (TChar c)); mret (new_kern (A:=float64) 0x1.4p+3%float)]) ;; hlist_of fake l true))
  0x1.3e4cp+5%float 0x1.868p+3%float 0x1.a2p+1%float = true.
Proof. vm_compute. reflexivity. Qed.

(** tex/box_test.go TestBox, case 39 *)
Example box_39 : dims_are ((l <- (seq [mret (new_kern (A:=float64) 0x1.4p+3%float); (c <- new_char fake "\sigma" st12 true ;; mret (TChar c)); vrule fake st12; (c <- new_char fake "\sum" st12 true ;; mret (TChar c)); mret (new_kern (A:=float64) 0x1.4p+3%float); (l <- (mret []) ;; hlist_of fake l true)]) ;; hlist_of fake l false))
  0x1.31cp+5%float 0x1.868p+3%float 0x1.a2p+1%float = true.
Proof. vm_compute. reflexivity. Qed.

(** tex/box_test.go TestBox, case 40 *)
Example box_40 : dims_are ((l <- (seq [mret (new_kern (A:=float64) 0x1.4p+3%float); (c <- new_accent fake "é" st12 false ;; mret (TAccent c)); vrule fake st12; (c <- new_char fake "\sum" st12 true ;; mret (TChar c)); mret (new_kern (A:=float64) 0x1.4p+3%float); (l <- (mret []) ;; hlist_of fake l true); (l <- (mret []) ;; vlist_of l)]) ;; hlist_of fake l false))
  0x1.2dep+5%float 0x1.868p+3%float 0x1.a2p+1%float = true.
Proof. vm_compute. reflexivity. Qed.

(** tex/box_test.go TestBox, case 41 *)
Example box_41 : dims_are ((l <- (seq [mret (new_kern (A:=float64) 0x1.4p+3%float); vrule fake st12; hrule fake st12 0x1.4p+3%float; mret (new_kern (A:=float64) 0x1.4p+3%float); (l <- (mret []) ;; hlist_of fake l true); (l <- (mret []) ;; vlist_of l)]) ;; vlist_of l))
  0x1.8p-1%float infinity 0x0p+0%float = true.
Proof. vm_compute. reflexivity. Qed.

(** tex/box_test.go TestBox, case 42 *)
Example box_42 : dims_are (auto_height_char fake "(" 0x1.1bb3333333333p+3%float 0x1.48fffffffffffp+1%float st12 0x0p+0%float)
  0x1.404d4p+2%float 0x1.378p+3%float 0x1.bp+0%float = true.
Proof. vm_compute. reflexivity. Qed.

(** tex/box_test.go TestShip, case 0 *)
Example ship_0 : ships_to ((l <- (seq [mret (new_kern (A:=float64) 0x1.4p+3%float); vrule fake st12; (l <- (mret []) ;; hlist_of fake l true); (l <- (mret []) ;; vlist_of l)]) ;; hlist_of fake l false))
  0 0x0p+0%float 0x1.58p+3%float = true.
Proof. vm_compute. reflexivity. Qed.

(** tex/box_test.go TestShip, case 1 *)
Example ship_1 : ships_to ((l <- (seq [mret (new_kern (A:=float64) 0x1.4p+3%float); (c <- new_accent fake "é" st12 false ;; mret (TAccent c)); vrule fake st12; (c <- new_char fake "\sum" st12 true ;; mret (TChar c)); mret (new_kern (A:=float64) 0x1.4p+3%float); (l <- (mret []) ;; hlist_of fake l true); (l <- (mret []) ;; vlist_of l)]) ;; hlist_of fake l false))
  0 0x0p+0%float 0x1.2dep+5%float = true.
Proof. vm_compute. reflexivity. Qed.

(** tex/box_test.go TestShip, case 2 *)
Example ship_2 : ships_to ((l <- (seq [hrule fake st12 0x1.4p+3%float]) ;; vlist_of l))
  0 0x0p+0%float infinity = true.
Proof. vm_compute. reflexivity. Qed.

(** tex/box_test.go TestShip, case 3 *)
Example ship_3 : ships_to ((l <- (seq [mret (new_kern (A:=float64) 0x1.4p+3%float); vrule fake st12; mret (new_kern (A:=float64) 0x1.4p+3%float); (l <- (mret []) ;; hlist_of fake l true); (l <- (mret []) ;; vlist_of l); glue_named "filll"]) ;; vlist_of l))
  0 0x0p+0%float 0x1.4cp+4%float = true.
Proof. vm_compute. reflexivity. Qed.

(** tex/box_test.go TestShip, case 4 *)
Example ship_4 : ships_to ((l <- (seq [mret (new_kern (A:=float64) 0x1.4p+3%float); vrule fake st12; mret (new_kern (A:=float64) 0x1.4p+3%float); (l <- (mret []) ;; hlist_of fake l true); glue_named "fil"; (l <- (seq [(c <- new_char fake "a" st12 false ;; mret (TChar c)); (c <- new_char fake "a" st12 false ;; mret (TChar c))]) ;; hcentered fake l); glue_named "fill"; glue_named "filll"; (l <- (seq [mret (new_kern (A:=float64) 0x1.4p+3%float); glue_named "neg_fil"; glue_named "neg_fill"; glue_named "neg_filll"; (l <- (mret []) ;; hlist_of fake l true); (l <- (seq [mret (new_kern (A:=float64) 0x1.4p+3%float); mret (new_kern (A:=float64) 0x1.4p+3%float); (c <- new_accent fake "é" st12 false ;; mret (TAccent c)); (c <- new_char fake "\sigma" st12 true ;; mret (TChar c)); (c <- new_char fake "a" st12 false ;; mret (TChar c)); hrule fake st12 0x1.4p+3%float; vrule fake st12; (l <- (seq [(c <- new_char fake "a" st12 false ;; mret (TChar c))]) ;; hlist_of fake l true); (l <- (seq [mret (vbox 0x1p+0%float 0x1p+1%float); mret (vbox 0x1p+1%float 0x1.8p+1%float); mret (hbox 0x1.4p+3%float); (l <- (seq [mret (vbox 0x1p+0%float 0x1p+1%float); mret (vbox 0x1p+0%float 0x1p+1%float); mret (hbox 0x1.4p+3%float); (l <- (mret []) ;; vlist_of l); hrule fake st12 0x1.4p+3%float; vrule fake st12]) ;; vlist_of l)]) ;; vlist_of l)]) ;; hlist_of fake l true); glue_named "filll"]) ;; vlist_of l)]) ;; vlist_of l))
  0 0x0p+0%float 0x1.fdp+4%float = true.
Proof. vm_compute. reflexivity. Qed.
