(** Specification for C96: what is asked of the fonts, and which expressions have roots. *)
From Coq Require Import ZArith String List QArith Qcanon Reals.
From Flocq Require Import Core.Core IEEE754.BinarySingleNaN IEEE754.PrimFloat.
From Verif Require Import Ast Arith Exact Box Float64Facts.
From Coq Require Import Floats.
Import ListNotations.
Local Open Scope string_scope.

(** No \sqrt. *)
Fixpoint rootless (n : node) : Prop :=
  match n with
  | NMacro nm l =>
    match nm with Some (_, name) => name <> "\sqrt" | None => True end /\ fold_right (fun x p => rootless x /\ p) True l
  | NMath _ _ l _ | NList l | NArg _ l _ | NOptArg _ l _ => fold_right (fun x p => rootless x /\ p) True l
  | NSub _ x | NSup _ x => rootless x
  | _ => True
  end.

(** A calm backend: every number it gives is [ok], the thickness of lines depends on the
    font and the resolution only and is not negative; and so are the other numbers of a
    call of Parse: the font size, the resolution, the lengths written in \hspace. *)
Record calm {A : arith} {S : Type} (ok : Arith.F A -> Prop) (be : @backend A S)
    (parse_float : string -> option (Arith.F A)) (size dpi : Arith.F A) : Prop := mk_calm {
  calm_metrics : forall sym f d m s x s', be_metrics be sym f d m s = LOk (x, s') ->
    Forall ok [m_adv x; m_height x; m_width x; m_ymin x; m_ymax x; m_iceberg x];
  calm_kern : forall f a g b d s x s', be_kern be f a g b d s = LOk (x, s') -> ok x;
  calm_line : exists line : @Box.font A -> Arith.F A -> Arith.F A,
    forall f d s x s', be_underline be f d s = LOk (x, s') -> x = line f d /\ ok x /\ fltb A x f0 = false;
  calm_numbers : forall v x, parse_float v = Some x -> ok x;
  calm_size : ok size /\ ok dpi /\ fltb A size f0 = false /\ fltb A dpi f0 = false }.

(** A finite number of exact arithmetic. *)
Definition rational (x : xq) : Prop := exists q, x = Fin q.

(** A float64 of magnitude at most 2^450. *)
Definition moderate (x : float) : Prop := finite x /\ (Rabs (R_of x) <= bpow radix2 450)%R.

(** A font size or a resolution: a finite number between 0 and 2^200. *)
Definition size_ok (x : float) : Prop := finite x /\ (0 <= R_of x <= bpow radix2 200)%R.

(** The radical sign has ink, in proportion to the size of its font. *)
Definition sign_grows {S} (be : @backend exact S) : Prop :=
  forall f d s x s', be_metrics be "\__sqrt__" f d true s = LOk (x, s') ->
    m_height x <> Fin 0 /\
    forall k s1 y s2, be_metrics be "\__sqrt__" (mk_font (f_name f) (f_type f) (fmul exact (f_size f) (Fin k))) d true s1 = LOk (y, s2) ->
      m_height y = fmul exact (m_height x) (Fin k).
