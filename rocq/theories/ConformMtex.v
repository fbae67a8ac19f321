(** Generated by tools/genconform.py from the tests of /repo: the model gives the
    results the tests of the code expect. mtex/parser_test.go *)
From Coq Require Import ZArith String Ascii List Bool Floats.
From Verif Require Import Utf8 Token Ast Parser Symbols Arith Box Ship Mtex MtexFacts.
Import ListNotations.
Local Open Scope string_scope.
Local Open Scope list_scope.
Local Open Scope Z_scope.
Set Warnings "-inexact-float".

(** internal/fakebackend/fakebackend_fonts_gen.go: the entries used here *)
Definition fonts_db : list (string * bool * (string * float * string) * @metrics float64) := [
  ("a", true, ("default", 0x1.4p+3%float, "rm"), mk_metrics 0x1.883p+2%float 0x1.6fp+2%float 0x1.27p+2%float 0x1.38p-1%float 0x1.4ep+2%float (-0x1.2p-3)%float 0x1.66p+2%float 0x1.66p+2%float false);
  ("b", true, ("default", 0x1.4p+3%float, "rm"), mk_metrics 0x1.964p+2%float 0x1.efp+2%float 0x1.39p+2%float 0x1.dp-1%float 0x1.73p+2%float (-0x1.2p-3)%float 0x1.e6p+2%float 0x1.e6p+2%float false);
  ("c", true, ("default", 0x1.4p+3%float, "rm"), mk_metrics 0x1.5fep+2%float 0x1.6fp+2%float 0x1.14p+2%float 0x1.18p-1%float 0x1.38p+2%float (-0x1.2p-3)%float 0x1.66p+2%float 0x1.66p+2%float false);
  ("e", true, ("default", 0x1.4p+3%float, "rm"), mk_metrics 0x1.89cp+2%float 0x1.6fp+2%float 0x1.44p+2%float 0x1.18p-1%float 0x1.68p+2%float (-0x1.2p-3)%float 0x1.66p+2%float 0x1.66p+2%float false);
  ("h", true, ("default", 0x1.4p+3%float, "rm"), mk_metrics 0x1.95ap+2%float 0x1.e6p+2%float 0x1.25p+2%float 0x1.dp-1%float 0x1.5fp+2%float 0x0p+0%float 0x1.e6p+2%float 0x1.e6p+2%float false);
  ("i", true, ("default", 0x1.4p+3%float, "rm"), mk_metrics 0x1.63ap+1%float 0x1.e6p+2%float 0x1.c8p-1%float 0x1.ep-1%float 0x1.d8p+0%float 0x0p+0%float 0x1.e6p+2%float 0x1.e6p+2%float false);
  ("l", true, ("default", 0x1.4p+3%float, "rm"), mk_metrics 0x1.63ap+1%float 0x1.e6p+2%float 0x1.c8p-1%float 0x1.ep-1%float 0x1.d8p+0%float 0x0p+0%float 0x1.e6p+2%float 0x1.e6p+2%float false);
  ("m", true, ("default", 0x1.4p+3%float, "rm"), mk_metrics 0x1.37b8p+3%float 0x1.66p+2%float 0x1.ffp+2%float 0x1.dp-1%float 0x1.1c8p+3%float 0x0p+0%float 0x1.66p+2%float 0x1.66p+2%float false);
  ("o", true, ("default", 0x1.4p+3%float, "rm"), mk_metrics 0x1.879p+2%float 0x1.6fp+2%float 0x1.41p+2%float 0x1.18p-1%float 0x1.65p+2%float (-0x1.2p-3)%float 0x1.66p+2%float 0x1.66p+2%float false);
  ("s", true, ("default", 0x1.4p+3%float, "rm"), mk_metrics 0x1.4d7p+2%float 0x1.6fp+2%float 0x1.0bp+2%float 0x1.18p-1%float 0x1.2ep+2%float (-0x1.2p-3)%float 0x1.66p+2%float 0x1.66p+2%float false);
  ("x", true, ("default", 0x1.4p+3%float, "rm"), mk_metrics 0x1.7acp+2%float 0x1.5ep+2%float 0x1.53p+2%float 0x1.3p-2%float 0x1.66p+2%float 0x0p+0%float 0x1.5ep+2%float 0x1.5ep+2%float false);
  ("y", true, ("default", 0x1.4p+3%float, "rm"), mk_metrics 0x1.7acp+2%float 0x1.e3p+2%float 0x1.54p+2%float 0x1.3p-2%float 0x1.68p+2%float (-0x1.0ap+1)%float 0x1.5ep+2%float 0x1.5ep+2%float false);
  ("1", true, ("default", 0x1.4p+3%float, "rm"), mk_metrics 0x1.973p+2%float 0x1.d3p+2%float 0x1.15p+2%float 0x1.18p+0%float 0x1.5cp+2%float 0x0p+0%float 0x1.d3p+2%float 0x1.d3p+2%float false);
  ("2", true, ("default", 0x1.4p+3%float, "rm"), mk_metrics 0x1.973p+2%float 0x1.dbp+2%float 0x1.28p+2%float 0x1.78p-1%float 0x1.57p+2%float 0x0p+0%float 0x1.dbp+2%float 0x1.dbp+2%float false);
  ("3", true, ("default", 0x1.4p+3%float, "rm"), mk_metrics 0x1.973p+2%float 0x1.e4p+2%float 0x1.33p+2%float 0x1.88p-1%float 0x1.64p+2%float (-0x1.2p-3)%float 0x1.dbp+2%float 0x1.dbp+2%float false);
  ("\sigma", true, ("default", 0x1.4p+3%float, "rm"), mk_metrics 0x1.95ap+2%float 0x1.67p+2%float 0x1.5fp+2%float 0x1.18p-1%float 0x1.83p+2%float (-0x1.2p-3)%float 0x1.5ep+2%float 0x1.5ep+2%float false);
  ("\infty", true, ("default", 0x1.4p+3%float, "rm"), mk_metrics 0x1.0a9p+3%float 0x1.ep+1%float 0x1.8bp+2%float 0x1.14p+0%float 0x1.dp+2%float 0x1.2p+0%float 0x1.38p+2%float 0x1.38p+2%float false);
  ("\theta", true, ("default", 0x1.4p+3%float, "rm"), mk_metrics 0x1.879p+2%float 0x1.f2p+2%float 0x1.41p+2%float 0x1.18p-1%float 0x1.65p+2%float (-0x1.cp-4)%float 0x1.ebp+2%float 0x1.ebp+2%float false);
  ("\pi", true, ("default", 0x1.4p+3%float, "rm"), mk_metrics 0x1.815p+2%float 0x1.6ap+2%float 0x1.58p+2%float 0x1.7p-2%float 0x1.7p+2%float (-0x1.8p-3)%float 0x1.5ep+2%float 0x1.5ep+2%float false);
  ("\rightarrow", true, ("default", 0x1.4p+3%float, "rm"), mk_metrics 0x1.0c2p+3%float 0x1.12p+2%float 0x1.d4p+2%float 0x1.28p-1%float 0x1.f9p+2%float 0x1p+0%float 0x1.52p+2%float 0x1.52p+2%float false);
  ("\__sqrt__", true, ("default", 0x1.4p+3%float, "rm"), mk_metrics 0x1.97dp+2%float 0x1.0ap+3%float 0x1.84p+2%float 0x1.3p-2%float 0x1.98p+2%float (-0x1.ap-3)%float 0x1.038p+3%float 0x1.038p+3%float false);
  (" ", true, ("default", 0x1.4p+3%float, "rm"), mk_metrics 0x1.96ep+1%float 0x0p+0%float 0x0p+0%float 0x0p+0%float 0x0p+0%float 0x0p+0%float 0x0p+0%float 0x0p+0%float false);
  ("=", true, ("default", 0x1.4p+3%float, "rm"), mk_metrics 0x1.0c2p+3%float 0x1.6ap+1%float 0x1.9p+2%float 0x1.1p+0%float 0x1.d5p+2%float 0x1.b8p+0%float 0x1.23p+2%float 0x1.23p+2%float false);
  ("(", true, ("default", 0x1.4p+3%float, "rm"), mk_metrics 0x1.f36p+1%float 0x1.1dp+3%float 0x1.1ep+1%float 0x1.b8p-1%float 0x1.8ep+1%float (-0x1.5p+0)%float 0x1.e6p+2%float 0x1.e6p+2%float false);
  (")", true, ("default", 0x1.4p+3%float, "rm"), mk_metrics 0x1.f36p+1%float 0x1.1dp+3%float 0x1.1ep+1%float 0x1.98p-1%float 0x1.86p+1%float (-0x1.5p+0)%float 0x1.e6p+2%float 0x1.e6p+2%float false);
  (".", true, ("default", 0x1.4p+3%float, "rm"), mk_metrics 0x1.96ep+1%float 0x1.3cp+0%float 0x1.04p+0%float 0x1.14p+0%float 0x1.0cp+1%float 0x0p+0%float 0x1.3cp+0%float 0x1.3cp+0%float false);
  ("a", true, ("default", 0x1.4p+3%float, "it"), mk_metrics 0x1.883p+2%float 0x1.6fp+2%float 0x1.27p+2%float 0x1.38p-1%float 0x1.4ep+2%float (-0x1.2p-3)%float 0x1.66p+2%float 0x1.66p+2%float false);
  ("b", true, ("default", 0x1.4p+3%float, "it"), mk_metrics 0x1.964p+2%float 0x1.efp+2%float 0x1.39p+2%float 0x1.dp-1%float 0x1.73p+2%float (-0x1.2p-3)%float 0x1.e6p+2%float 0x1.e6p+2%float false);
  ("c", true, ("default", 0x1.4p+3%float, "it"), mk_metrics 0x1.5fep+2%float 0x1.6fp+2%float 0x1.14p+2%float 0x1.18p-1%float 0x1.38p+2%float (-0x1.2p-3)%float 0x1.66p+2%float 0x1.66p+2%float false);
  ("e", true, ("default", 0x1.4p+3%float, "it"), mk_metrics 0x1.89cp+2%float 0x1.6fp+2%float 0x1.44p+2%float 0x1.18p-1%float 0x1.68p+2%float (-0x1.2p-3)%float 0x1.66p+2%float 0x1.66p+2%float false);
  ("h", true, ("default", 0x1.4p+3%float, "it"), mk_metrics 0x1.95ap+2%float 0x1.e6p+2%float 0x1.25p+2%float 0x1.dp-1%float 0x1.5fp+2%float 0x0p+0%float 0x1.e6p+2%float 0x1.e6p+2%float false);
  ("i", true, ("default", 0x1.4p+3%float, "it"), mk_metrics 0x1.63ap+1%float 0x1.e6p+2%float 0x1.c8p-1%float 0x1.ep-1%float 0x1.d8p+0%float 0x0p+0%float 0x1.e6p+2%float 0x1.e6p+2%float false);
  ("l", true, ("default", 0x1.4p+3%float, "it"), mk_metrics 0x1.63ap+1%float 0x1.e6p+2%float 0x1.c8p-1%float 0x1.ep-1%float 0x1.d8p+0%float 0x0p+0%float 0x1.e6p+2%float 0x1.e6p+2%float false);
  ("m", true, ("default", 0x1.4p+3%float, "it"), mk_metrics 0x1.37b8p+3%float 0x1.66p+2%float 0x1.ffp+2%float 0x1.dp-1%float 0x1.1c8p+3%float 0x0p+0%float 0x1.66p+2%float 0x1.66p+2%float false);
  ("o", true, ("default", 0x1.4p+3%float, "it"), mk_metrics 0x1.879p+2%float 0x1.6fp+2%float 0x1.41p+2%float 0x1.18p-1%float 0x1.65p+2%float (-0x1.2p-3)%float 0x1.66p+2%float 0x1.66p+2%float false);
  ("s", true, ("default", 0x1.4p+3%float, "it"), mk_metrics 0x1.4d7p+2%float 0x1.6fp+2%float 0x1.0bp+2%float 0x1.18p-1%float 0x1.2ep+2%float (-0x1.2p-3)%float 0x1.66p+2%float 0x1.66p+2%float false);
  ("x", true, ("default", 0x1.4p+3%float, "it"), mk_metrics 0x1.7acp+2%float 0x1.5ep+2%float 0x1.53p+2%float 0x1.3p-2%float 0x1.66p+2%float 0x0p+0%float 0x1.5ep+2%float 0x1.5ep+2%float false);
  ("y", true, ("default", 0x1.4p+3%float, "it"), mk_metrics 0x1.7acp+2%float 0x1.e3p+2%float 0x1.54p+2%float 0x1.3p-2%float 0x1.68p+2%float (-0x1.0ap+1)%float 0x1.5ep+2%float 0x1.5ep+2%float false);
  ("1", true, ("default", 0x1.4p+3%float, "it"), mk_metrics 0x1.973p+2%float 0x1.d3p+2%float 0x1.15p+2%float 0x1.18p+0%float 0x1.5cp+2%float 0x0p+0%float 0x1.d3p+2%float 0x1.d3p+2%float false);
  ("2", true, ("default", 0x1.4p+3%float, "it"), mk_metrics 0x1.973p+2%float 0x1.dbp+2%float 0x1.28p+2%float 0x1.78p-1%float 0x1.57p+2%float 0x0p+0%float 0x1.dbp+2%float 0x1.dbp+2%float false);
  ("3", true, ("default", 0x1.4p+3%float, "it"), mk_metrics 0x1.973p+2%float 0x1.e4p+2%float 0x1.33p+2%float 0x1.88p-1%float 0x1.64p+2%float (-0x1.2p-3)%float 0x1.dbp+2%float 0x1.dbp+2%float false);
  ("\sigma", true, ("default", 0x1.4p+3%float, "it"), mk_metrics 0x1.95ap+2%float 0x1.67p+2%float 0x1.5fp+2%float 0x1.18p-1%float 0x1.83p+2%float (-0x1.2p-3)%float 0x1.5ep+2%float 0x1.5ep+2%float false);
  ("\infty", true, ("default", 0x1.4p+3%float, "it"), mk_metrics 0x1.0a9p+3%float 0x1.ep+1%float 0x1.8bp+2%float 0x1.14p+0%float 0x1.dp+2%float 0x1.2p+0%float 0x1.38p+2%float 0x1.38p+2%float false);
  ("\theta", true, ("default", 0x1.4p+3%float, "it"), mk_metrics 0x1.879p+2%float 0x1.f2p+2%float 0x1.41p+2%float 0x1.18p-1%float 0x1.65p+2%float (-0x1.cp-4)%float 0x1.ebp+2%float 0x1.ebp+2%float false);
  ("\pi", true, ("default", 0x1.4p+3%float, "it"), mk_metrics 0x1.815p+2%float 0x1.6ap+2%float 0x1.58p+2%float 0x1.7p-2%float 0x1.7p+2%float (-0x1.8p-3)%float 0x1.5ep+2%float 0x1.5ep+2%float false);
  ("\rightarrow", true, ("default", 0x1.4p+3%float, "it"), mk_metrics 0x1.0c2p+3%float 0x1.12p+2%float 0x1.d4p+2%float 0x1.28p-1%float 0x1.f9p+2%float 0x1p+0%float 0x1.52p+2%float 0x1.52p+2%float false);
  ("\__sqrt__", true, ("default", 0x1.4p+3%float, "it"), mk_metrics 0x1.97dp+2%float 0x1.0ap+3%float 0x1.84p+2%float 0x1.3p-2%float 0x1.98p+2%float (-0x1.ap-3)%float 0x1.038p+3%float 0x1.038p+3%float false);
  (" ", true, ("default", 0x1.4p+3%float, "it"), mk_metrics 0x1.96ep+1%float 0x0p+0%float 0x0p+0%float 0x0p+0%float 0x0p+0%float 0x0p+0%float 0x0p+0%float 0x0p+0%float false);
  ("=", true, ("default", 0x1.4p+3%float, "it"), mk_metrics 0x1.0c2p+3%float 0x1.6ap+1%float 0x1.9p+2%float 0x1.1p+0%float 0x1.d5p+2%float 0x1.b8p+0%float 0x1.23p+2%float 0x1.23p+2%float false);
  ("(", true, ("default", 0x1.4p+3%float, "it"), mk_metrics 0x1.f36p+1%float 0x1.1dp+3%float 0x1.1ep+1%float 0x1.b8p-1%float 0x1.8ep+1%float (-0x1.5p+0)%float 0x1.e6p+2%float 0x1.e6p+2%float false);
  (")", true, ("default", 0x1.4p+3%float, "it"), mk_metrics 0x1.f36p+1%float 0x1.1dp+3%float 0x1.1ep+1%float 0x1.98p-1%float 0x1.86p+1%float (-0x1.5p+0)%float 0x1.e6p+2%float 0x1.e6p+2%float false);
  (".", true, ("default", 0x1.4p+3%float, "it"), mk_metrics 0x1.96ep+1%float 0x1.3cp+0%float 0x1.04p+0%float 0x1.14p+0%float 0x1.0cp+1%float 0x0p+0%float 0x1.3cp+0%float 0x1.3cp+0%float false);
  ("a", true, ("it", 0x1.4p+3%float, "it"), mk_metrics 0x1.883p+2%float 0x1.6fp+2%float 0x1.43p+2%float 0x1.ap-2%float 0x1.5ep+2%float (-0x1.2p-3)%float 0x1.66p+2%float 0x1.66p+2%float true);
  ("b", true, ("it", 0x1.4p+3%float, "it"), mk_metrics 0x1.964p+2%float 0x1.efp+2%float 0x1.6p+2%float 0x1.7p-2%float 0x1.78p+2%float (-0x1.2p-3)%float 0x1.e6p+2%float 0x1.e6p+2%float true);
  ("c", true, ("it", 0x1.4p+3%float, "it"), mk_metrics 0x1.5fep+2%float 0x1.6fp+2%float 0x1.39p+2%float 0x1.dp-2%float 0x1.57p+2%float (-0x1.2p-3)%float 0x1.66p+2%float 0x1.66p+2%float true);
  ("e", true, ("it", 0x1.4p+3%float, "it"), mk_metrics 0x1.89cp+2%float 0x1.6fp+2%float 0x1.5p+2%float 0x1.dp-2%float 0x1.6dp+2%float (-0x1.2p-3)%float 0x1.66p+2%float 0x1.66p+2%float true);
  ("h", true, ("it", 0x1.4p+3%float, "it"), mk_metrics 0x1.95ap+2%float 0x1.e6p+2%float 0x1.53p+2%float 0x1.7p-2%float 0x1.6ap+2%float 0x0p+0%float 0x1.e6p+2%float 0x1.e6p+2%float true);
  ("i", true, ("it", 0x1.4p+3%float, "it"), mk_metrics 0x1.63ap+1%float 0x1.e6p+2%float 0x1.3p+1%float 0x1.7p-2%float 0x1.5ep+1%float 0x0p+0%float 0x1.e6p+2%float 0x1.e6p+2%float true);
  ("l", true, ("it", 0x1.4p+3%float, "it"), mk_metrics 0x1.63ap+1%float 0x1.e6p+2%float 0x1.3p+1%float 0x1.7p-2%float 0x1.5ep+1%float 0x0p+0%float 0x1.e6p+2%float 0x1.e6p+2%float true);
  ("m", true, ("it", 0x1.4p+3%float, "it"), mk_metrics 0x1.37b8p+3%float 0x1.66p+2%float 0x1.168p+3%float 0x1.7p-2%float 0x1.22p+3%float 0x0p+0%float 0x1.66p+2%float 0x1.66p+2%float true);
  ("o", true, ("it", 0x1.4p+3%float, "it"), mk_metrics 0x1.879p+2%float 0x1.6fp+2%float 0x1.4cp+2%float 0x1.dp-2%float 0x1.6ap+2%float (-0x1.2p-3)%float 0x1.66p+2%float 0x1.66p+2%float true);
  ("s", true, ("it", 0x1.4p+3%float, "it"), mk_metrics 0x1.4d7p+2%float 0x1.6fp+2%float 0x1.38p+2%float 0x1.cp-4%float 0x1.4p+2%float (-0x1.2p-3)%float 0x1.66p+2%float 0x1.66p+2%float true);
  ("x", true, ("it", 0x1.4p+3%float, "it"), mk_metrics 0x1.7acp+2%float 0x1.5ep+2%float 0x1.9p+2%float (-0x1.1p-2)%float 0x1.8p+2%float 0x0p+0%float 0x1.5ep+2%float 0x1.5ep+2%float true);
  ("y", true, ("it", 0x1.4p+3%float, "it"), mk_metrics 0x1.7acp+2%float 0x1.e3p+2%float 0x1.92p+2%float (-0x1p-2)%float 0x1.82p+2%float (-0x1.0ap+1)%float 0x1.5ep+2%float 0x1.5ep+2%float true);
  ("1", true, ("it", 0x1.4p+3%float, "it"), mk_metrics 0x1.973p+2%float 0x1.d3p+2%float 0x1.15p+2%float 0x1.18p+0%float 0x1.5cp+2%float 0x0p+0%float 0x1.d3p+2%float 0x1.d3p+2%float false);
  ("2", true, ("it", 0x1.4p+3%float, "it"), mk_metrics 0x1.973p+2%float 0x1.dbp+2%float 0x1.28p+2%float 0x1.78p-1%float 0x1.57p+2%float 0x0p+0%float 0x1.dbp+2%float 0x1.dbp+2%float false);
  ("3", true, ("it", 0x1.4p+3%float, "it"), mk_metrics 0x1.973p+2%float 0x1.e4p+2%float 0x1.33p+2%float 0x1.88p-1%float 0x1.64p+2%float (-0x1.2p-3)%float 0x1.dbp+2%float 0x1.dbp+2%float false);
  ("\sigma", true, ("it", 0x1.4p+3%float, "it"), mk_metrics 0x1.95ap+2%float 0x1.67p+2%float 0x1.92p+2%float 0x1.3p-2%float 0x1.a6p+2%float (-0x1.2p-3)%float 0x1.5ep+2%float 0x1.5ep+2%float true);
  ("\infty", true, ("it", 0x1.4p+3%float, "it"), mk_metrics 0x1.0a9p+3%float 0x1.ep+1%float 0x1.8bp+2%float 0x1.14p+0%float 0x1.dp+2%float 0x1.2p+0%float 0x1.38p+2%float 0x1.38p+2%float false);
  ("\theta", true, ("it", 0x1.4p+3%float, "it"), mk_metrics 0x1.879p+2%float 0x1.f2p+2%float 0x1.6ep+2%float 0x1.ap-3%float 0x1.7bp+2%float (-0x1.cp-4)%float 0x1.ebp+2%float 0x1.ebp+2%float true);
  ("\pi", true, ("it", 0x1.4p+3%float, "it"), mk_metrics 0x1.815p+2%float 0x1.6ap+2%float 0x1.66p+2%float 0x1.18p-1%float 0x1.8ap+2%float (-0x1.8p-3)%float 0x1.5ep+2%float 0x1.5ep+2%float true);
  ("\rightarrow", true, ("it", 0x1.4p+3%float, "it"), mk_metrics 0x1.0c2p+3%float 0x1.12p+2%float 0x1.d4p+2%float 0x1.28p-1%float 0x1.f9p+2%float 0x1p+0%float 0x1.52p+2%float 0x1.52p+2%float false);
  ("\__sqrt__", true, ("it", 0x1.4p+3%float, "it"), mk_metrics 0x1.97dp+2%float 0x1.0ap+3%float 0x1.84p+2%float 0x1.3p-2%float 0x1.98p+2%float (-0x1.ap-3)%float 0x1.038p+3%float 0x1.038p+3%float false);
  (" ", true, ("it", 0x1.4p+3%float, "it"), mk_metrics 0x1.96ep+1%float 0x0p+0%float 0x0p+0%float 0x0p+0%float 0x0p+0%float 0x0p+0%float 0x0p+0%float 0x0p+0%float false);
  ("=", true, ("it", 0x1.4p+3%float, "it"), mk_metrics 0x1.0c2p+3%float 0x1.6ap+1%float 0x1.9p+2%float 0x1.1p+0%float 0x1.d5p+2%float 0x1.b8p+0%float 0x1.23p+2%float 0x1.23p+2%float false);
  ("(", true, ("it", 0x1.4p+3%float, "it"), mk_metrics 0x1.f36p+1%float 0x1.1dp+3%float 0x1.1ep+1%float 0x1.b8p-1%float 0x1.8ep+1%float (-0x1.5p+0)%float 0x1.e6p+2%float 0x1.e6p+2%float false);
  (")", true, ("it", 0x1.4p+3%float, "it"), mk_metrics 0x1.f36p+1%float 0x1.1dp+3%float 0x1.1ep+1%float 0x1.98p-1%float 0x1.86p+1%float (-0x1.5p+0)%float 0x1.e6p+2%float 0x1.e6p+2%float false);
  (".", true, ("it", 0x1.4p+3%float, "it"), mk_metrics 0x1.96ep+1%float 0x1.3cp+0%float 0x1.04p+0%float 0x1.14p+0%float 0x1.0cp+1%float 0x0p+0%float 0x1.3cp+0%float 0x1.3cp+0%float false);
  ("a", false, ("default", 0x1.4p+3%float, "rm"), mk_metrics 0x1.883p+2%float 0x1.6fp+2%float 0x1.27p+2%float 0x1.38p-1%float 0x1.4ep+2%float (-0x1.2p-3)%float 0x1.66p+2%float 0x1.66p+2%float false);
  ("b", false, ("default", 0x1.4p+3%float, "rm"), mk_metrics 0x1.964p+2%float 0x1.efp+2%float 0x1.39p+2%float 0x1.dp-1%float 0x1.73p+2%float (-0x1.2p-3)%float 0x1.e6p+2%float 0x1.e6p+2%float false);
  ("c", false, ("default", 0x1.4p+3%float, "rm"), mk_metrics 0x1.5fep+2%float 0x1.6fp+2%float 0x1.14p+2%float 0x1.18p-1%float 0x1.38p+2%float (-0x1.2p-3)%float 0x1.66p+2%float 0x1.66p+2%float false);
  ("e", false, ("default", 0x1.4p+3%float, "rm"), mk_metrics 0x1.89cp+2%float 0x1.6fp+2%float 0x1.44p+2%float 0x1.18p-1%float 0x1.68p+2%float (-0x1.2p-3)%float 0x1.66p+2%float 0x1.66p+2%float false);
  ("h", false, ("default", 0x1.4p+3%float, "rm"), mk_metrics 0x1.95ap+2%float 0x1.e6p+2%float 0x1.25p+2%float 0x1.dp-1%float 0x1.5fp+2%float 0x0p+0%float 0x1.e6p+2%float 0x1.e6p+2%float false);
  ("i", false, ("default", 0x1.4p+3%float, "rm"), mk_metrics 0x1.63ap+1%float 0x1.e6p+2%float 0x1.c8p-1%float 0x1.ep-1%float 0x1.d8p+0%float 0x0p+0%float 0x1.e6p+2%float 0x1.e6p+2%float false);
  ("l", false, ("default", 0x1.4p+3%float, "rm"), mk_metrics 0x1.63ap+1%float 0x1.e6p+2%float 0x1.c8p-1%float 0x1.ep-1%float 0x1.d8p+0%float 0x0p+0%float 0x1.e6p+2%float 0x1.e6p+2%float false);
  ("m", false, ("default", 0x1.4p+3%float, "rm"), mk_metrics 0x1.37b8p+3%float 0x1.66p+2%float 0x1.ffp+2%float 0x1.dp-1%float 0x1.1c8p+3%float 0x0p+0%float 0x1.66p+2%float 0x1.66p+2%float false);
  ("o", false, ("default", 0x1.4p+3%float, "rm"), mk_metrics 0x1.879p+2%float 0x1.6fp+2%float 0x1.41p+2%float 0x1.18p-1%float 0x1.65p+2%float (-0x1.2p-3)%float 0x1.66p+2%float 0x1.66p+2%float false);
  ("s", false, ("default", 0x1.4p+3%float, "rm"), mk_metrics 0x1.4d7p+2%float 0x1.6fp+2%float 0x1.0bp+2%float 0x1.18p-1%float 0x1.2ep+2%float (-0x1.2p-3)%float 0x1.66p+2%float 0x1.66p+2%float false);
  ("x", false, ("default", 0x1.4p+3%float, "rm"), mk_metrics 0x1.7acp+2%float 0x1.5ep+2%float 0x1.53p+2%float 0x1.3p-2%float 0x1.66p+2%float 0x0p+0%float 0x1.5ep+2%float 0x1.5ep+2%float false);
  ("y", false, ("default", 0x1.4p+3%float, "rm"), mk_metrics 0x1.7acp+2%float 0x1.e3p+2%float 0x1.54p+2%float 0x1.3p-2%float 0x1.68p+2%float (-0x1.0ap+1)%float 0x1.5ep+2%float 0x1.5ep+2%float false);
  ("1", false, ("default", 0x1.4p+3%float, "rm"), mk_metrics 0x1.973p+2%float 0x1.d3p+2%float 0x1.15p+2%float 0x1.18p+0%float 0x1.5cp+2%float 0x0p+0%float 0x1.d3p+2%float 0x1.d3p+2%float false);
  ("2", false, ("default", 0x1.4p+3%float, "rm"), mk_metrics 0x1.973p+2%float 0x1.dbp+2%float 0x1.28p+2%float 0x1.78p-1%float 0x1.57p+2%float 0x0p+0%float 0x1.dbp+2%float 0x1.dbp+2%float false);
  ("3", false, ("default", 0x1.4p+3%float, "rm"), mk_metrics 0x1.973p+2%float 0x1.e4p+2%float 0x1.33p+2%float 0x1.88p-1%float 0x1.64p+2%float (-0x1.2p-3)%float 0x1.dbp+2%float 0x1.dbp+2%float false);
  ("\sigma", false, ("default", 0x1.4p+3%float, "rm"), mk_metrics 0x1.95ap+2%float 0x1.67p+2%float 0x1.5fp+2%float 0x1.18p-1%float 0x1.83p+2%float (-0x1.2p-3)%float 0x1.5ep+2%float 0x1.5ep+2%float false);
  ("\infty", false, ("default", 0x1.4p+3%float, "rm"), mk_metrics 0x1.0a9p+3%float 0x1.ep+1%float 0x1.8bp+2%float 0x1.14p+0%float 0x1.dp+2%float 0x1.2p+0%float 0x1.38p+2%float 0x1.38p+2%float false);
  ("\theta", false, ("default", 0x1.4p+3%float, "rm"), mk_metrics 0x1.879p+2%float 0x1.f2p+2%float 0x1.41p+2%float 0x1.18p-1%float 0x1.65p+2%float (-0x1.cp-4)%float 0x1.ebp+2%float 0x1.ebp+2%float false);
  ("\pi", false, ("default", 0x1.4p+3%float, "rm"), mk_metrics 0x1.815p+2%float 0x1.6ap+2%float 0x1.58p+2%float 0x1.7p-2%float 0x1.7p+2%float (-0x1.8p-3)%float 0x1.5ep+2%float 0x1.5ep+2%float false);
  ("\rightarrow", false, ("default", 0x1.4p+3%float, "rm"), mk_metrics 0x1.0c2p+3%float 0x1.12p+2%float 0x1.d4p+2%float 0x1.28p-1%float 0x1.f9p+2%float 0x1p+0%float 0x1.52p+2%float 0x1.52p+2%float false);
  ("\__sqrt__", false, ("default", 0x1.4p+3%float, "rm"), mk_metrics 0x1.97dp+2%float 0x1.0ap+3%float 0x1.84p+2%float 0x1.3p-2%float 0x1.98p+2%float (-0x1.ap-3)%float 0x1.038p+3%float 0x1.038p+3%float false);
  (" ", false, ("default", 0x1.4p+3%float, "rm"), mk_metrics 0x1.96ep+1%float 0x0p+0%float 0x0p+0%float 0x0p+0%float 0x0p+0%float 0x0p+0%float 0x0p+0%float 0x0p+0%float false);
  ("=", false, ("default", 0x1.4p+3%float, "rm"), mk_metrics 0x1.0c2p+3%float 0x1.6ap+1%float 0x1.9p+2%float 0x1.1p+0%float 0x1.d5p+2%float 0x1.b8p+0%float 0x1.23p+2%float 0x1.23p+2%float false);
  ("(", false, ("default", 0x1.4p+3%float, "rm"), mk_metrics 0x1.f36p+1%float 0x1.1dp+3%float 0x1.1ep+1%float 0x1.b8p-1%float 0x1.8ep+1%float (-0x1.5p+0)%float 0x1.e6p+2%float 0x1.e6p+2%float false);
  (")", false, ("default", 0x1.4p+3%float, "rm"), mk_metrics 0x1.f36p+1%float 0x1.1dp+3%float 0x1.1ep+1%float 0x1.98p-1%float 0x1.86p+1%float (-0x1.5p+0)%float 0x1.e6p+2%float 0x1.e6p+2%float false);
  (".", false, ("default", 0x1.4p+3%float, "rm"), mk_metrics 0x1.96ep+1%float 0x1.3cp+0%float 0x1.04p+0%float 0x1.14p+0%float 0x1.0cp+1%float 0x0p+0%float 0x1.3cp+0%float 0x1.3cp+0%float false);
  ("a", false, ("default", 0x1.4p+3%float, "it"), mk_metrics 0x1.883p+2%float 0x1.6fp+2%float 0x1.27p+2%float 0x1.38p-1%float 0x1.4ep+2%float (-0x1.2p-3)%float 0x1.66p+2%float 0x1.66p+2%float false);
  ("b", false, ("default", 0x1.4p+3%float, "it"), mk_metrics 0x1.964p+2%float 0x1.efp+2%float 0x1.39p+2%float 0x1.dp-1%float 0x1.73p+2%float (-0x1.2p-3)%float 0x1.e6p+2%float 0x1.e6p+2%float false);
  ("c", false, ("default", 0x1.4p+3%float, "it"), mk_metrics 0x1.5fep+2%float 0x1.6fp+2%float 0x1.14p+2%float 0x1.18p-1%float 0x1.38p+2%float (-0x1.2p-3)%float 0x1.66p+2%float 0x1.66p+2%float false);
  ("e", false, ("default", 0x1.4p+3%float, "it"), mk_metrics 0x1.89cp+2%float 0x1.6fp+2%float 0x1.44p+2%float 0x1.18p-1%float 0x1.68p+2%float (-0x1.2p-3)%float 0x1.66p+2%float 0x1.66p+2%float false);
  ("h", false, ("default", 0x1.4p+3%float, "it"), mk_metrics 0x1.95ap+2%float 0x1.e6p+2%float 0x1.25p+2%float 0x1.dp-1%float 0x1.5fp+2%float 0x0p+0%float 0x1.e6p+2%float 0x1.e6p+2%float false);
  ("i", false, ("default", 0x1.4p+3%float, "it"), mk_metrics 0x1.63ap+1%float 0x1.e6p+2%float 0x1.c8p-1%float 0x1.ep-1%float 0x1.d8p+0%float 0x0p+0%float 0x1.e6p+2%float 0x1.e6p+2%float false);
  ("l", false, ("default", 0x1.4p+3%float, "it"), mk_metrics 0x1.63ap+1%float 0x1.e6p+2%float 0x1.c8p-1%float 0x1.ep-1%float 0x1.d8p+0%float 0x0p+0%float 0x1.e6p+2%float 0x1.e6p+2%float false);
  ("m", false, ("default", 0x1.4p+3%float, "it"), mk_metrics 0x1.37b8p+3%float 0x1.66p+2%float 0x1.ffp+2%float 0x1.dp-1%float 0x1.1c8p+3%float 0x0p+0%float 0x1.66p+2%float 0x1.66p+2%float false);
  ("o", false, ("default", 0x1.4p+3%float, "it"), mk_metrics 0x1.879p+2%float 0x1.6fp+2%float 0x1.41p+2%float 0x1.18p-1%float 0x1.65p+2%float (-0x1.2p-3)%float 0x1.66p+2%float 0x1.66p+2%float false);
  ("s", false, ("default", 0x1.4p+3%float, "it"), mk_metrics 0x1.4d7p+2%float 0x1.6fp+2%float 0x1.0bp+2%float 0x1.18p-1%float 0x1.2ep+2%float (-0x1.2p-3)%float 0x1.66p+2%float 0x1.66p+2%float false);
  ("x", false, ("default", 0x1.4p+3%float, "it"), mk_metrics 0x1.7acp+2%float 0x1.5ep+2%float 0x1.53p+2%float 0x1.3p-2%float 0x1.66p+2%float 0x0p+0%float 0x1.5ep+2%float 0x1.5ep+2%float false);
  ("y", false, ("default", 0x1.4p+3%float, "it"), mk_metrics 0x1.7acp+2%float 0x1.e3p+2%float 0x1.54p+2%float 0x1.3p-2%float 0x1.68p+2%float (-0x1.0ap+1)%float 0x1.5ep+2%float 0x1.5ep+2%float false);
  ("1", false, ("default", 0x1.4p+3%float, "it"), mk_metrics 0x1.973p+2%float 0x1.d3p+2%float 0x1.15p+2%float 0x1.18p+0%float 0x1.5cp+2%float 0x0p+0%float 0x1.d3p+2%float 0x1.d3p+2%float false);
  ("2", false, ("default", 0x1.4p+3%float, "it"), mk_metrics 0x1.973p+2%float 0x1.dbp+2%float 0x1.28p+2%float 0x1.78p-1%float 0x1.57p+2%float 0x0p+0%float 0x1.dbp+2%float 0x1.dbp+2%float false);
  ("3", false, ("default", 0x1.4p+3%float, "it"), mk_metrics 0x1.973p+2%float 0x1.e4p+2%float 0x1.33p+2%float 0x1.88p-1%float 0x1.64p+2%float (-0x1.2p-3)%float 0x1.dbp+2%float 0x1.dbp+2%float false);
  ("\sigma", false, ("default", 0x1.4p+3%float, "it"), mk_metrics 0x1.95ap+2%float 0x1.67p+2%float 0x1.5fp+2%float 0x1.18p-1%float 0x1.83p+2%float (-0x1.2p-3)%float 0x1.5ep+2%float 0x1.5ep+2%float false);
  ("\infty", false, ("default", 0x1.4p+3%float, "it"), mk_metrics 0x1.0a9p+3%float 0x1.ep+1%float 0x1.8bp+2%float 0x1.14p+0%float 0x1.dp+2%float 0x1.2p+0%float 0x1.38p+2%float 0x1.38p+2%float false);
  ("\theta", false, ("default", 0x1.4p+3%float, "it"), mk_metrics 0x1.879p+2%float 0x1.f2p+2%float 0x1.41p+2%float 0x1.18p-1%float 0x1.65p+2%float (-0x1.cp-4)%float 0x1.ebp+2%float 0x1.ebp+2%float false);
  ("\pi", false, ("default", 0x1.4p+3%float, "it"), mk_metrics 0x1.815p+2%float 0x1.6ap+2%float 0x1.58p+2%float 0x1.7p-2%float 0x1.7p+2%float (-0x1.8p-3)%float 0x1.5ep+2%float 0x1.5ep+2%float false);
  ("\rightarrow", false, ("default", 0x1.4p+3%float, "it"), mk_metrics 0x1.0c2p+3%float 0x1.12p+2%float 0x1.d4p+2%float 0x1.28p-1%float 0x1.f9p+2%float 0x1p+0%float 0x1.52p+2%float 0x1.52p+2%float false);
  ("\__sqrt__", false, ("default", 0x1.4p+3%float, "it"), mk_metrics 0x1.97dp+2%float 0x1.0ap+3%float 0x1.84p+2%float 0x1.3p-2%float 0x1.98p+2%float (-0x1.ap-3)%float 0x1.038p+3%float 0x1.038p+3%float false);
  (" ", false, ("default", 0x1.4p+3%float, "it"), mk_metrics 0x1.96ep+1%float 0x0p+0%float 0x0p+0%float 0x0p+0%float 0x0p+0%float 0x0p+0%float 0x0p+0%float 0x0p+0%float false);
  ("=", false, ("default", 0x1.4p+3%float, "it"), mk_metrics 0x1.0c2p+3%float 0x1.6ap+1%float 0x1.9p+2%float 0x1.1p+0%float 0x1.d5p+2%float 0x1.b8p+0%float 0x1.23p+2%float 0x1.23p+2%float false);
  ("(", false, ("default", 0x1.4p+3%float, "it"), mk_metrics 0x1.f36p+1%float 0x1.1dp+3%float 0x1.1ep+1%float 0x1.b8p-1%float 0x1.8ep+1%float (-0x1.5p+0)%float 0x1.e6p+2%float 0x1.e6p+2%float false);
  (")", false, ("default", 0x1.4p+3%float, "it"), mk_metrics 0x1.f36p+1%float 0x1.1dp+3%float 0x1.1ep+1%float 0x1.98p-1%float 0x1.86p+1%float (-0x1.5p+0)%float 0x1.e6p+2%float 0x1.e6p+2%float false);
  (".", false, ("default", 0x1.4p+3%float, "it"), mk_metrics 0x1.96ep+1%float 0x1.3cp+0%float 0x1.04p+0%float 0x1.14p+0%float 0x1.0cp+1%float 0x0p+0%float 0x1.3cp+0%float 0x1.3cp+0%float false);
  ("a", false, ("it", 0x1.4p+3%float, "it"), mk_metrics 0x1.883p+2%float 0x1.6fp+2%float 0x1.43p+2%float 0x1.ap-2%float 0x1.5ep+2%float (-0x1.2p-3)%float 0x1.66p+2%float 0x1.66p+2%float true);
  ("b", false, ("it", 0x1.4p+3%float, "it"), mk_metrics 0x1.964p+2%float 0x1.efp+2%float 0x1.6p+2%float 0x1.7p-2%float 0x1.78p+2%float (-0x1.2p-3)%float 0x1.e6p+2%float 0x1.e6p+2%float true);
  ("c", false, ("it", 0x1.4p+3%float, "it"), mk_metrics 0x1.5fep+2%float 0x1.6fp+2%float 0x1.39p+2%float 0x1.dp-2%float 0x1.57p+2%float (-0x1.2p-3)%float 0x1.66p+2%float 0x1.66p+2%float true);
  ("e", false, ("it", 0x1.4p+3%float, "it"), mk_metrics 0x1.89cp+2%float 0x1.6fp+2%float 0x1.5p+2%float 0x1.dp-2%float 0x1.6dp+2%float (-0x1.2p-3)%float 0x1.66p+2%float 0x1.66p+2%float true);
  ("h", false, ("it", 0x1.4p+3%float, "it"), mk_metrics 0x1.95ap+2%float 0x1.e6p+2%float 0x1.53p+2%float 0x1.7p-2%float 0x1.6ap+2%float 0x0p+0%float 0x1.e6p+2%float 0x1.e6p+2%float true);
  ("i", false, ("it", 0x1.4p+3%float, "it"), mk_metrics 0x1.63ap+1%float 0x1.e6p+2%float 0x1.3p+1%float 0x1.7p-2%float 0x1.5ep+1%float 0x0p+0%float 0x1.e6p+2%float 0x1.e6p+2%float true);
  ("l", false, ("it", 0x1.4p+3%float, "it"), mk_metrics 0x1.63ap+1%float 0x1.e6p+2%float 0x1.3p+1%float 0x1.7p-2%float 0x1.5ep+1%float 0x0p+0%float 0x1.e6p+2%float 0x1.e6p+2%float true);
  ("m", false, ("it", 0x1.4p+3%float, "it"), mk_metrics 0x1.37b8p+3%float 0x1.66p+2%float 0x1.168p+3%float 0x1.7p-2%float 0x1.22p+3%float 0x0p+0%float 0x1.66p+2%float 0x1.66p+2%float true);
  ("o", false, ("it", 0x1.4p+3%float, "it"), mk_metrics 0x1.879p+2%float 0x1.6fp+2%float 0x1.4cp+2%float 0x1.dp-2%float 0x1.6ap+2%float (-0x1.2p-3)%float 0x1.66p+2%float 0x1.66p+2%float true);
  ("s", false, ("it", 0x1.4p+3%float, "it"), mk_metrics 0x1.4d7p+2%float 0x1.6fp+2%float 0x1.38p+2%float 0x1.cp-4%float 0x1.4p+2%float (-0x1.2p-3)%float 0x1.66p+2%float 0x1.66p+2%float true);
  ("x", false, ("it", 0x1.4p+3%float, "it"), mk_metrics 0x1.7acp+2%float 0x1.5ep+2%float 0x1.9p+2%float (-0x1.1p-2)%float 0x1.8p+2%float 0x0p+0%float 0x1.5ep+2%float 0x1.5ep+2%float true);
  ("y", false, ("it", 0x1.4p+3%float, "it"), mk_metrics 0x1.7acp+2%float 0x1.e3p+2%float 0x1.92p+2%float (-0x1p-2)%float 0x1.82p+2%float (-0x1.0ap+1)%float 0x1.5ep+2%float 0x1.5ep+2%float true);
  ("1", false, ("it", 0x1.4p+3%float, "it"), mk_metrics 0x1.973p+2%float 0x1.d3p+2%float 0x1.15p+2%float 0x1.18p+0%float 0x1.5cp+2%float 0x0p+0%float 0x1.d3p+2%float 0x1.d3p+2%float false);
  ("2", false, ("it", 0x1.4p+3%float, "it"), mk_metrics 0x1.973p+2%float 0x1.dbp+2%float 0x1.28p+2%float 0x1.78p-1%float 0x1.57p+2%float 0x0p+0%float 0x1.dbp+2%float 0x1.dbp+2%float false);
  ("3", false, ("it", 0x1.4p+3%float, "it"), mk_metrics 0x1.973p+2%float 0x1.e4p+2%float 0x1.33p+2%float 0x1.88p-1%float 0x1.64p+2%float (-0x1.2p-3)%float 0x1.dbp+2%float 0x1.dbp+2%float false);
  ("\sigma", false, ("it", 0x1.4p+3%float, "it"), mk_metrics 0x1.95ap+2%float 0x1.67p+2%float 0x1.92p+2%float 0x1.3p-2%float 0x1.a6p+2%float (-0x1.2p-3)%float 0x1.5ep+2%float 0x1.5ep+2%float true);
  ("\infty", false, ("it", 0x1.4p+3%float, "it"), mk_metrics 0x1.0a9p+3%float 0x1.ep+1%float 0x1.8bp+2%float 0x1.14p+0%float 0x1.dp+2%float 0x1.2p+0%float 0x1.38p+2%float 0x1.38p+2%float false);
  ("\theta", false, ("it", 0x1.4p+3%float, "it"), mk_metrics 0x1.879p+2%float 0x1.f2p+2%float 0x1.6ep+2%float 0x1.ap-3%float 0x1.7bp+2%float (-0x1.cp-4)%float 0x1.ebp+2%float 0x1.ebp+2%float true);
  ("\pi", false, ("it", 0x1.4p+3%float, "it"), mk_metrics 0x1.815p+2%float 0x1.6ap+2%float 0x1.66p+2%float 0x1.18p-1%float 0x1.8ap+2%float (-0x1.8p-3)%float 0x1.5ep+2%float 0x1.5ep+2%float true);
  ("\rightarrow", false, ("it", 0x1.4p+3%float, "it"), mk_metrics 0x1.0c2p+3%float 0x1.12p+2%float 0x1.d4p+2%float 0x1.28p-1%float 0x1.f9p+2%float 0x1p+0%float 0x1.52p+2%float 0x1.52p+2%float false);
  ("\__sqrt__", false, ("it", 0x1.4p+3%float, "it"), mk_metrics 0x1.97dp+2%float 0x1.0ap+3%float 0x1.84p+2%float 0x1.3p-2%float 0x1.98p+2%float (-0x1.ap-3)%float 0x1.038p+3%float 0x1.038p+3%float false);
  (" ", false, ("it", 0x1.4p+3%float, "it"), mk_metrics 0x1.96ep+1%float 0x0p+0%float 0x0p+0%float 0x0p+0%float 0x0p+0%float 0x0p+0%float 0x0p+0%float 0x0p+0%float false);
  ("=", false, ("it", 0x1.4p+3%float, "it"), mk_metrics 0x1.0c2p+3%float 0x1.6ap+1%float 0x1.9p+2%float 0x1.1p+0%float 0x1.d5p+2%float 0x1.b8p+0%float 0x1.23p+2%float 0x1.23p+2%float false);
  ("(", false, ("it", 0x1.4p+3%float, "it"), mk_metrics 0x1.f36p+1%float 0x1.1dp+3%float 0x1.1ep+1%float 0x1.b8p-1%float 0x1.8ep+1%float (-0x1.5p+0)%float 0x1.e6p+2%float 0x1.e6p+2%float false);
  (")", false, ("it", 0x1.4p+3%float, "it"), mk_metrics 0x1.f36p+1%float 0x1.1dp+3%float 0x1.1ep+1%float 0x1.98p-1%float 0x1.86p+1%float (-0x1.5p+0)%float 0x1.e6p+2%float 0x1.e6p+2%float false);
  (".", false, ("it", 0x1.4p+3%float, "it"), mk_metrics 0x1.96ep+1%float 0x1.3cp+0%float 0x1.04p+0%float 0x1.14p+0%float 0x1.0cp+1%float 0x0p+0%float 0x1.3cp+0%float 0x1.3cp+0%float false);
  ("(", true, ("default", 0x1.9ae42785d6ae4p+3%float, "rm"), mk_metrics 0x1.404d4p+2%float 0x1.6d8p+3%float 0x1.7p+1%float 0x1.1cp+0%float 0x1.fep+1%float (-0x1.bp+0)%float 0x1.378p+3%float 0x1.378p+3%float false);
  (")", true, ("default", 0x1.9ae42785d6ae4p+3%float, "rm"), mk_metrics 0x1.404d4p+2%float 0x1.6d8p+3%float 0x1.7p+1%float 0x1.08p+0%float 0x1.f4p+1%float (-0x1.bp+0)%float 0x1.378p+3%float 0x1.378p+3%float false);
  ("\__sqrt__", true, ("default", 0x1.9ae42785d6ae4p+3%float, "rm"), mk_metrics 0x1.0592cp+3%float 0x1.55p+3%float 0x1.f2p+2%float 0x1.9p-2%float 0x1.058p+3%float (-0x1p-2)%float 0x1.4dp+3%float 0x1.4dp+3%float false);
  ("(", true, ("default", 0x1.9603d980f6604p+3%float, "rm"), mk_metrics 0x1.3cca8p+2%float 0x1.698p+3%float 0x1.6cp+1%float 0x1.18p+0%float 0x1.f8p+1%float (-0x1.acp+0)%float 0x1.34p+3%float 0x1.34p+3%float false);
  (")", true, ("default", 0x1.9603d980f6604p+3%float, "rm"), mk_metrics 0x1.3cca8p+2%float 0x1.698p+3%float 0x1.6cp+1%float 0x1.04p+0%float 0x1.eep+1%float (-0x1.acp+0)%float 0x1.34p+3%float 0x1.34p+3%float false);
  ("\__sqrt__", true, ("default", 0x1.9603d980f6604p+3%float, "rm"), mk_metrics 0x1.02b4cp+3%float 0x1.518p+3%float 0x1.edp+2%float 0x1.8p-2%float 0x1.028p+3%float (-0x1p-2)%float 0x1.498p+3%float 0x1.498p+3%float false);
  ("(", true, ("default", 0x1.9ae42785d6ae4p+3%float, "it"), mk_metrics 0x1.404d4p+2%float 0x1.6d8p+3%float 0x1.7p+1%float 0x1.1cp+0%float 0x1.fep+1%float (-0x1.bp+0)%float 0x1.378p+3%float 0x1.378p+3%float false);
  (")", true, ("default", 0x1.9ae42785d6ae4p+3%float, "it"), mk_metrics 0x1.404d4p+2%float 0x1.6d8p+3%float 0x1.7p+1%float 0x1.08p+0%float 0x1.f4p+1%float (-0x1.bp+0)%float 0x1.378p+3%float 0x1.378p+3%float false);
  ("\__sqrt__", true, ("default", 0x1.9ae42785d6ae4p+3%float, "it"), mk_metrics 0x1.0592cp+3%float 0x1.55p+3%float 0x1.f2p+2%float 0x1.9p-2%float 0x1.058p+3%float (-0x1p-2)%float 0x1.4dp+3%float 0x1.4dp+3%float false);
  ("(", true, ("default", 0x1.9603d980f6604p+3%float, "it"), mk_metrics 0x1.3cca8p+2%float 0x1.698p+3%float 0x1.6cp+1%float 0x1.18p+0%float 0x1.f8p+1%float (-0x1.acp+0)%float 0x1.34p+3%float 0x1.34p+3%float false);
  (")", true, ("default", 0x1.9603d980f6604p+3%float, "it"), mk_metrics 0x1.3cca8p+2%float 0x1.698p+3%float 0x1.6cp+1%float 0x1.04p+0%float 0x1.eep+1%float (-0x1.acp+0)%float 0x1.34p+3%float 0x1.34p+3%float false);
  ("\__sqrt__", true, ("default", 0x1.9603d980f6604p+3%float, "it"), mk_metrics 0x1.02b4cp+3%float 0x1.518p+3%float 0x1.edp+2%float 0x1.8p-2%float 0x1.028p+3%float (-0x1p-2)%float 0x1.498p+3%float 0x1.498p+3%float false);
  ("(", true, ("it", 0x1.9ae42785d6ae4p+3%float, "it"), mk_metrics 0x1.404d4p+2%float 0x1.6d8p+3%float 0x1.7p+1%float 0x1.1cp+0%float 0x1.fep+1%float (-0x1.bp+0)%float 0x1.378p+3%float 0x1.378p+3%float false);
  (")", true, ("it", 0x1.9ae42785d6ae4p+3%float, "it"), mk_metrics 0x1.404d4p+2%float 0x1.6d8p+3%float 0x1.7p+1%float 0x1.08p+0%float 0x1.f4p+1%float (-0x1.bp+0)%float 0x1.378p+3%float 0x1.378p+3%float false);
  ("\__sqrt__", true, ("it", 0x1.9ae42785d6ae4p+3%float, "it"), mk_metrics 0x1.0592cp+3%float 0x1.55p+3%float 0x1.f2p+2%float 0x1.9p-2%float 0x1.058p+3%float (-0x1p-2)%float 0x1.4dp+3%float 0x1.4dp+3%float false);
  ("(", true, ("it", 0x1.9603d980f6604p+3%float, "it"), mk_metrics 0x1.3cca8p+2%float 0x1.698p+3%float 0x1.6cp+1%float 0x1.18p+0%float 0x1.f8p+1%float (-0x1.acp+0)%float 0x1.34p+3%float 0x1.34p+3%float false);
  (")", true, ("it", 0x1.9603d980f6604p+3%float, "it"), mk_metrics 0x1.3cca8p+2%float 0x1.698p+3%float 0x1.6cp+1%float 0x1.04p+0%float 0x1.eep+1%float (-0x1.acp+0)%float 0x1.34p+3%float 0x1.34p+3%float false);
  ("\__sqrt__", true, ("it", 0x1.9603d980f6604p+3%float, "it"), mk_metrics 0x1.02b4cp+3%float 0x1.518p+3%float 0x1.edp+2%float 0x1.8p-2%float 0x1.028p+3%float (-0x1p-2)%float 0x1.498p+3%float 0x1.498p+3%float false);
  ("(", false, ("default", 0x1.9ae42785d6ae4p+3%float, "rm"), mk_metrics 0x1.404d4p+2%float 0x1.6d8p+3%float 0x1.7p+1%float 0x1.1cp+0%float 0x1.fep+1%float (-0x1.bp+0)%float 0x1.378p+3%float 0x1.378p+3%float false);
  (")", false, ("default", 0x1.9ae42785d6ae4p+3%float, "rm"), mk_metrics 0x1.404d4p+2%float 0x1.6d8p+3%float 0x1.7p+1%float 0x1.08p+0%float 0x1.f4p+1%float (-0x1.bp+0)%float 0x1.378p+3%float 0x1.378p+3%float false);
  ("\__sqrt__", false, ("default", 0x1.9ae42785d6ae4p+3%float, "rm"), mk_metrics 0x1.0592cp+3%float 0x1.55p+3%float 0x1.f2p+2%float 0x1.9p-2%float 0x1.058p+3%float (-0x1p-2)%float 0x1.4dp+3%float 0x1.4dp+3%float false);
  ("(", false, ("default", 0x1.9603d980f6604p+3%float, "rm"), mk_metrics 0x1.3cca8p+2%float 0x1.698p+3%float 0x1.6cp+1%float 0x1.18p+0%float 0x1.f8p+1%float (-0x1.acp+0)%float 0x1.34p+3%float 0x1.34p+3%float false);
  (")", false, ("default", 0x1.9603d980f6604p+3%float, "rm"), mk_metrics 0x1.3cca8p+2%float 0x1.698p+3%float 0x1.6cp+1%float 0x1.04p+0%float 0x1.eep+1%float (-0x1.acp+0)%float 0x1.34p+3%float 0x1.34p+3%float false);
  ("\__sqrt__", false, ("default", 0x1.9603d980f6604p+3%float, "rm"), mk_metrics 0x1.02b4cp+3%float 0x1.518p+3%float 0x1.edp+2%float 0x1.8p-2%float 0x1.028p+3%float (-0x1p-2)%float 0x1.498p+3%float 0x1.498p+3%float false);
  ("(", false, ("default", 0x1.9ae42785d6ae4p+3%float, "it"), mk_metrics 0x1.404d4p+2%float 0x1.6d8p+3%float 0x1.7p+1%float 0x1.1cp+0%float 0x1.fep+1%float (-0x1.bp+0)%float 0x1.378p+3%float 0x1.378p+3%float false);
  (")", false, ("default", 0x1.9ae42785d6ae4p+3%float, "it"), mk_metrics 0x1.404d4p+2%float 0x1.6d8p+3%float 0x1.7p+1%float 0x1.08p+0%float 0x1.f4p+1%float (-0x1.bp+0)%float 0x1.378p+3%float 0x1.378p+3%float false);
  ("\__sqrt__", false, ("default", 0x1.9ae42785d6ae4p+3%float, "it"), mk_metrics 0x1.0592cp+3%float 0x1.55p+3%float 0x1.f2p+2%float 0x1.9p-2%float 0x1.058p+3%float (-0x1p-2)%float 0x1.4dp+3%float 0x1.4dp+3%float false);
  ("(", false, ("default", 0x1.9603d980f6604p+3%float, "it"), mk_metrics 0x1.3cca8p+2%float 0x1.698p+3%float 0x1.6cp+1%float 0x1.18p+0%float 0x1.f8p+1%float (-0x1.acp+0)%float 0x1.34p+3%float 0x1.34p+3%float false);
  (")", false, ("default", 0x1.9603d980f6604p+3%float, "it"), mk_metrics 0x1.3cca8p+2%float 0x1.698p+3%float 0x1.6cp+1%float 0x1.04p+0%float 0x1.eep+1%float (-0x1.acp+0)%float 0x1.34p+3%float 0x1.34p+3%float false);
  ("\__sqrt__", false, ("default", 0x1.9603d980f6604p+3%float, "it"), mk_metrics 0x1.02b4cp+3%float 0x1.518p+3%float 0x1.edp+2%float 0x1.8p-2%float 0x1.028p+3%float (-0x1p-2)%float 0x1.498p+3%float 0x1.498p+3%float false);
  ("(", false, ("it", 0x1.9ae42785d6ae4p+3%float, "it"), mk_metrics 0x1.404d4p+2%float 0x1.6d8p+3%float 0x1.7p+1%float 0x1.1cp+0%float 0x1.fep+1%float (-0x1.bp+0)%float 0x1.378p+3%float 0x1.378p+3%float false);
  (")", false, ("it", 0x1.9ae42785d6ae4p+3%float, "it"), mk_metrics 0x1.404d4p+2%float 0x1.6d8p+3%float 0x1.7p+1%float 0x1.08p+0%float 0x1.f4p+1%float (-0x1.bp+0)%float 0x1.378p+3%float 0x1.378p+3%float false);
  ("\__sqrt__", false, ("it", 0x1.9ae42785d6ae4p+3%float, "it"), mk_metrics 0x1.0592cp+3%float 0x1.55p+3%float 0x1.f2p+2%float 0x1.9p-2%float 0x1.058p+3%float (-0x1p-2)%float 0x1.4dp+3%float 0x1.4dp+3%float false);
  ("(", false, ("it", 0x1.9603d980f6604p+3%float, "it"), mk_metrics 0x1.3cca8p+2%float 0x1.698p+3%float 0x1.6cp+1%float 0x1.18p+0%float 0x1.f8p+1%float (-0x1.acp+0)%float 0x1.34p+3%float 0x1.34p+3%float false);
  (")", false, ("it", 0x1.9603d980f6604p+3%float, "it"), mk_metrics 0x1.3cca8p+2%float 0x1.698p+3%float 0x1.6cp+1%float 0x1.04p+0%float 0x1.eep+1%float (-0x1.acp+0)%float 0x1.34p+3%float 0x1.34p+3%float false);
  ("\__sqrt__", false, ("it", 0x1.9603d980f6604p+3%float, "it"), mk_metrics 0x1.02b4cp+3%float 0x1.518p+3%float 0x1.edp+2%float 0x1.8p-2%float 0x1.028p+3%float (-0x1p-2)%float 0x1.498p+3%float 0x1.498p+3%float false)].
(** fakebackend_xheight_gen.go *)
Definition xhs_db : list (string * float * float * float) := [
  ("default", 0x1.4p+3%float, 0x1.2p+6%float, 0x1.5ep+2%float);
  ("default", 0x1.8p+3%float, 0x1.2p+6%float, 0x1.a4p+2%float);
  ("regular", 0x1.4p+3%float, 0x1.2p+6%float, 0x1.5ep+2%float);
  ("regular", 0x1.8p+3%float, 0x1.2p+6%float, 0x1.a4p+2%float);
  ("rm", 0x1.4p+3%float, 0x1.2p+6%float, 0x1.5ep+2%float);
  ("rm", 0x1.8p+3%float, 0x1.2p+6%float, 0x1.a4p+2%float);
  ("it", 0x1.4p+3%float, 0x1.2p+6%float, 0x1.5ep+2%float);
  ("it", 0x1.8p+3%float, 0x1.2p+6%float, 0x1.a4p+2%float)].
(** fakebackend_kerns_gen.go: the nonzero entries (an absent one counts as 0) *)
Definition kerns_db : list ((string * float * string) * string * string * float) := [
  (("default", 0x1.4p+3%float, "regular"), ".", "2", (-0x1p-1)%float);
  (("default", 0x1.8p+3%float, "regular"), ".", "2", (-0x1.4p-1)%float);
  (("default", 0x1.4p+3%float, "rm"), ".", "2", (-0x1p-1)%float);
  (("default", 0x1.8p+3%float, "rm"), ".", "2", (-0x1.4p-1)%float);
  (("it", 0x1.4p+3%float, "it"), ".", "2", (-0x1p-1)%float);
  (("it", 0x1.8p+3%float, "it"), ".", "2", (-0x1.4p-1)%float)].
Definition same_font (k : string * float * string) (f : @font float64) : bool :=
  let '(n, s, t) := k in String.eqb n (f_name f) && PrimFloat.eqb s (f_size f) && String.eqb t (f_type f).
(** internal/fakebackend/fakebackend.go:41-99 *)
Definition fake : @backend float64 unit := {|
  be_kern := fun f1 s1 f2 s2 dpi =>
    if String.eqb (f_name f1) (f_name f2) && PrimFloat.eqb (f_size f1) (f_size f2) && String.eqb (f_type f1) (f_type f2)
    then mret 0%float
    else mret (match List.find (fun e => let '(k, a, b, _) := e in same_font k f1 && String.eqb a s1 && String.eqb b s2) kerns_db with
               | Some (_, _, _, k) => k | None => 0%float end);
  be_metrics := fun s f dpi m =>
    if PrimFloat.eqb dpi 72%float then
      match List.find (fun e => let '(a, b, k, _) := e in String.eqb a s && Bool.eqb b m && same_font k f) fonts_db with
      | Some (_, _, _, x) => mret x | None => mpanic "no pre-generated metrics" end
    else mpanic "no pre-generated metrics";
  be_xheight := fun f dpi =>
    match List.find (fun e => let '(n, s, d, _) := e in String.eqb n (f_name f) && PrimFloat.eqb s (f_size f) && PrimFloat.eqb d dpi) xhs_db with
    | Some (_, _, _, x) => mret x | None => mpanic "no pre-generated xheight" end;
  be_underline := fun f dpi => mret ((0x1p-4 * f_size f * dpi) / 72)%float |}.

Local Open Scope float_scope.
(** strconv.ParseFloat on the literals that occur *)
Definition parse_float (s : string) : option float := if String.eqb s "2" then Some 2 else None.
Definition size_is (x : string) (w h d : float) : bool :=
  match mtex_parse (A:=float64) (fun _ => false) id_range fake parse_float x 10 72 tt with
  | Some (LOk ((t, None), _)) => PrimFloat.eqb (t_width t) w && PrimFloat.eqb (t_height t) h && PrimFloat.eqb (t_depth t) d
  | _ => false
  end.

(** mtex/parser_test.go TestParse, case 0 *)
Example mtex_0 : size_is "hello" 0x1.82a4p+4%float 0x1.e6p+2%float 0x1.2p-3%float = true.
Proof. vm_compute. reflexivity. Qed.

(** mtex/parser_test.go TestParse, case 1 *)
Example mtex_1 : size_is "$hello$" 0x1.82a4p+4%float 0x1.e6p+2%float 0x1.2p-3%float = true.
Proof. vm_compute. reflexivity. Qed.

(** mtex/parser_test.go TestParse, case 2 *)
Example mtex_2 : size_is "$\sigma$" 0x1.95ap+2%float 0x1.5ep+2%float 0x1.2p-3%float = true.
Proof. vm_compute. reflexivity. Qed.

(** mtex/parser_test.go TestParse, case 3 *)
Example mtex_3 : size_is "$\sigma$ is $12$" 0x1.0b44p+5%float 0x1.e6p+2%float 0x1.2p-3%float = true.
Proof. vm_compute. reflexivity. Qed.

(** mtex/parser_test.go TestParse, case 4 *)
Example mtex_4 : size_is "$1.1$" 0x1.fce8p+3%float 0x1.d3p+2%float 0x0p+0%float = true.
Proof. vm_compute. reflexivity. Qed.

(** mtex/parser_test.go TestParse, case 5 *)
Example mtex_5 : size_is "$1.$" 0x1.6fa8p+3%float 0x1.d3p+2%float 0x0p+0%float = true.
Proof. vm_compute. reflexivity. Qed.

(** mtex/parser_test.go TestParse, case 6 *)
Example mtex_6 : size_is "$.2$" 0x1.6fa8p+3%float 0x1.dbp+2%float 0x0p+0%float = true.
Proof. vm_compute. reflexivity. Qed.

(** mtex/parser_test.go TestParse, case 7 *)
Example mtex_7 : size_is "$.$" 0x1.482p+2%float 0x1.3cp+0%float 0x0p+0%float = true.
Proof. vm_compute. reflexivity. Qed.

(** mtex/parser_test.go TestParse, case 8 *)
Example mtex_8 : size_is "$x.x$" 0x1.0f68p+4%float 0x1.5ep+2%float 0x0p+0%float = true.
Proof. vm_compute. reflexivity. Qed.

(** mtex/parser_test.go TestParse, case 9 *)
Example mtex_9 : size_is "$\sigma \rightarrow \infty$" 0x1.af18p+4%float 0x1.5ep+2%float 0x1.2p-3%float = true.
Proof. vm_compute. reflexivity. Qed.

(** mtex/parser_test.go TestParse, case 10 *)
Example mtex_10 : size_is "$\sigma\,=\infty$" 0x1.c912220c49ba6p+4%float 0x1.5ep+2%float 0x1.2p-3%float = true.
Proof. vm_compute. reflexivity. Qed.

(** mtex/parser_test.go TestParse, case 11 *)
Example mtex_11 : size_is "$\sigma\hspace{2}=\infty$" 0x1.7368p+5%float 0x1.5ep+2%float 0x1.2p-3%float = true.
Proof. vm_compute. reflexivity. Qed.

(** mtex/parser_test.go TestParse, case 12 *)
Example mtex_12 : size_is "$\cos\theta$" 0x1.6f1cp+4%float 0x1.ebp+2%float 0x1.2p-3%float = true.
Proof. vm_compute. reflexivity. Qed.

(** mtex/parser_test.go TestParse, case 13 *)
Example mtex_13 : size_is "$\pi$" 0x1.815p+2%float 0x1.5ep+2%float 0x1.8p-3%float = true.
Proof. vm_compute. reflexivity. Qed.

(** mtex/parser_test.go TestParse, case 14 *)
Example mtex_14 : size_is "$\frac{x}{y}$" 0x1.592p+2%float 0x1.06cp+3%float 0x1.0199999999999p+2%float = true.
Proof. vm_compute. reflexivity. Qed.

(** mtex/parser_test.go TestParse, case 15 *)
Example mtex_15 : size_is "$\frac{1}{2}$" 0x1.6d08p+2%float 0x1.2fb3333333333p+3%float 0x1.f8p+1%float = true.
Proof. vm_compute. reflexivity. Qed.

(** mtex/parser_test.go TestParse, case 16 *)
Example mtex_16 : size_is "$\frac{1}{2\pi}$" 0x1.3d6p+3%float 0x1.2fb3333333333p+3%float 0x1.0466666666666p+2%float = true.
Proof. vm_compute. reflexivity. Qed.

(** mtex/parser_test.go TestParse, case 17 *)
Example mtex_17 : size_is "$\dfrac{1}{2}$" 0x1.e73p+2%float 0x1.75cp+3%float 0x1.8a8p+2%float = true.
Proof. vm_compute. reflexivity. Qed.

(** mtex/parser_test.go TestParse, case 18 *)
Example mtex_18 : size_is "$\tfrac{1}{2}$" 0x1.6d08p+2%float 0x1.2fb3333333333p+3%float 0x1.f8p+1%float = true.
Proof. vm_compute. reflexivity. Qed.

(** mtex/parser_test.go TestParse, case 19 *)
Example mtex_19 : size_is "$\binom{1}{x}$" 0x1.f6d14p+3%float 0x1.1bb3333333333p+3%float 0x1.48fffffffffffp+1%float = true.
Proof. vm_compute. reflexivity. Qed.

(** mtex/parser_test.go TestParse, case 20 *)
Example mtex_20 : size_is "$\sqrt{2x}$" 0x1.6dd66p+4%float 0x1.64b3333333333p+3%float 0x0p+0%float = true.
Proof. vm_compute. reflexivity. Qed.

(** mtex/parser_test.go TestParse, case 21 *)
Example mtex_21 : size_is "$\sqrt[3]{2x}$" 0x1.5f0a966666666p+4%float 0x1.64b3333333333p+3%float 0x0p+0%float = true.
Proof. vm_compute. reflexivity. Qed.

(** mtex/parser_test.go TestParse, case 22 *)
Example mtex_22 : size_is "$\overline{ab}$" 0x1.8f38p+3%float 0x1.4233333333333p+3%float 0x1.2p-3%float = true.
Proof. vm_compute. reflexivity. Qed.
