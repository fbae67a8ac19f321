(** Generated by tools/genconform.py from the tests of /repo: the model gives the
    results the tests of the code expect. internal/tex2unicode/utf8_test.go, mtex/symbols/symbols_test.go, token/token_test.go, tex/tex_test.go *)
From Coq Require Import ZArith String Ascii List Bool Floats.
From Verif Require Import Utf8 Token Parser Symbols Arith Box MtexFacts.
Import ListNotations.
Local Open Scope string_scope.
Local Open Scope list_scope.
Local Open Scope Z_scope.

(** utf8_test.go TestIndex *)
Example index_cases : forallb (fun c => match c with (v, r, m) => match index v m with Some x => x =? r | None => false end end) [
  ("a", 97, false);
  ("a", 97, true);
  ("t", 116, false);
  ("t", 116, true);
  ("A", 65, false);
  ("A", 65, true);
  ("T", 84, false);
  ("T", 84, true);
  ("0", 48, false);
  ("0", 48, true);
  ("-", 45, false);
  ("-", 8722, true);
  ("\alpha", 945, true);
  ("\t", 865, true);
  ("\aleph", 8501, true);
  ("\flat", 9837, true);
  ("\Join", 10781, true);
  ("\perp", 10178, true);
  ("\pm", 177, true);
  ("\mp", 8723, true);
  ("\neq", 8800, true);
  ("\__sqrt__", 8730, true);
  ("\partial", 8706, true);
  ("\hbar", 295, true);
  ("\hslash", 8463, true);
  ("\int", 8747, true);
  ("\oint", 8750, true);
  ("\oiint", 8751, true);
  ("\infty", 8734, true);
  ("\sigma", 963, true);
  ("\varsigma", 962, true);
  ("\Sigma", 931, true);
  ("\sum", 8721, true);
  ("\Pi", 928, true);
  ("\pi", 960, true);
  ("\nabla", 8711, true);
  ("\varepsilon", 949, true);
  ("\l", 322, true);
  ("\L", 321, true);
  ("\ast", 8727, true)] = true.
Proof. vm_compute. reflexivity. Qed.
(** utf8_test.go TestHasSymbol *)
Example has_symbol_cases : (has_symbol "alpha", has_symbol "\alpha") = (true, false).
Proof. vm_compute. reflexivity. Qed.
(** symbols_test.go TestIsSpaced *)
Example is_spaced_cases : forallb (fun c => Bool.eqb (is_spaced id_range (fst c)) (snd c)) [
  ("\leftarrow", true); ("\dashv", true); ("=", true); ("<", true); ("+", true); ("\pm", true); ("\sum", false); ("\alpha", false); (" ", false)] = true.
Proof. vm_compute. reflexivity. Qed.
(** token_test.go TestKind *)
Example kind_case : kind_string (kind_int KMacro) = Some "Macro".
Proof. vm_compute. reflexivity. Qed.
(** tex_test.go TestDetermineOrder *)
Example order_cases : forallb (fun c => Nat.eqb (determine_order (A:=float64) (fst c)) (snd c)) [
  ([0x1p+0%float; 0x1p+1%float; 0x1.8p+1%float; 0x0p+0%float], 2%nat); ([0x1p+0%float; 0x1p+1%float; 0x1.8p+1%float; 0x1p+2%float], 3%nat); ([0x0p+0%float; 0x1p+1%float; 0x1.8p+1%float; 0x0p+0%float], 2%nat); ([0x0p+0%float; 0x1p+0%float; 0x0p+0%float; 0x0p+0%float], 1%nat)] = true.
Proof. vm_compute. reflexivity. Qed.
