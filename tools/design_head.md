# Formal model of go-latex/latex in Rocq (Coq 8.16.1)

The properties are in `properties.jsonl` (generated by `tools/mkprops.py`), the
status of each in `MANIFEST.json`, the model and the proofs in `rocq/theories`, the
record of the tests against wrong programs in `seeded/LOG.jsonl`. This file is
generated by `tools/mkdesign.py` (sections 1-3 from `tools/design_head.md`).

## 1. How the code is modelled

| part of /repo | model | notes |
|---|---|---|
| `unicode/utf8` decoding, `text/scanner`, `strconv.Quote` (Go standard library, **not** in /repo) | `Utf8.v`, `GoScanner.v`, `Quote.v` | written from the documented/published behaviour of the standard library; trusted. |
| `scanner.go` | `Lexer.v` | every `Next` is a function from the remaining characters to a lexeme. |
| `parser.go`, `macros.go` | `Parser.v`; tables generated by `tools/gentables.py` into `MacroTable.v` | panics are values; recursion on explicit fuel, exhaustion is a third result proved unreachable. |
| `ast/*.go` | `Ast.v` | `nil` is the explicit node `NNil`; `Walk` is parametrised by an arbitrary stateful visitor. |
| `token/*.go` | `Token.v` | |
| `mtex/symbols`, `internal/tex2unicode` | `Symbols.v`, generated `SetTable.v`, `SymTable.v` | a Go map is an association list; iteration order is an arbitrary permutation (`fair`). |
| `tex/*.go` (boxes, glue, packing, scaling) | `Arith.v`, `Box.v` | numbers are a record of operations, instantiated with binary64 (Coq's primitive floats, bit for bit) and with exact rationals extended by infinities and NaN (`Exact.v`). |
| `tex/box.go` (Ship), `tex/utils.go` | `Ship.v` | the traversal with its mutable cursor, as a function from state to state and drawing events. |
| `mtex/parser.go`, `mtex/macros.go` | `Mtex.v`, generated `MtexTable.v` | the visitor over `Ast.walk`, over an arbitrary stateful font backend. |
| `tex/box.go`, `mtex/parser.go` again | `Heap.v` | nodes as pointers into a heap, changed in place, every access a step (C94); `ConcSpec.v` runs such programs, and Render, as goroutines (C95). |
| `tex/box.go`, `mtex/parser.go` again | `LogMtex.v` | with the lines written to the standard logger (C96); results proved equal to those of `Mtex.v`. |
| `mtex/render.go` | `Render.v` | |
| `drawtex/canvas.go`, `font/ttf/ttf.go` | `Ttf.v` | the sfnt/opentype library and `unicode.L` are arbitrary oracles (record `sfnt`). |
| `drawtex/drawimg/drawimg.go` | `Render.v` | as the list of calls to the gg library; what gg does with them (pixels, PNG encoding) is not modelled beyond the current font, path and context size. |
| `drawtex/drawpdf`, `cmd/mtex-render/gio.go` (Render only) | `Backends.v` | as lists of calls to the pdf and gio libraries. |
| `font/lm`, `font/liberation` | `Once.v` | explicit-step state machine for `sync.Once` and any number of goroutines. |
| `cmd/mtex-render/gio.go` (event loop) | `Gui.v` | window events, visible widgets and their order, text and clicks are arbitrary inputs; the gio library, the headless window and PNG decoding are oracles. |
| `mtex/symbols/gen-symbols.go` | `GenSyms.v` | the Python process and the order of map iteration are arbitrary; writes to the created file succeed. |
| `ci/run-tests.go` | `Ci.v` | commands and file operations as events; results of commands and I/O failures are arbitrary; flag parsing omitted. |
| `cmd/mtex-render/main.go` | `Cli.v` | flags (package flag), file operations as a list of steps with crash points. |

Validation of the model: `Conform*.v` (generated by `tools/genconform.py`) replay
the tests of /repo (parser, printer, symbols, boxes, mtex with the fake backend of
`internal/fakebackend`) on the model by computation; they are tests of the model,
not proofs of properties.

Log lines of packing are modelled in Warn.v (one packing, C90) and LogMtex.v (all those of a call of Parse, C96); the layout code itself (Box.v, Mtex.v) leaves them out.
Not modelled: other log and stderr output, the generator of the
fake backend, the fake backend except for the numbers used in the conformance examples, the contents of font files.

### Simplifications common to all parts
* Go `int`/`token.Pos` is `Z` (no wrap-around: offsets are bounded by the input length).
* Go strings are Coq `string`s of bytes.
* `unicode.IsLetter` is exact on ASCII and an arbitrary predicate `uni_letter`
  on runes >= 128 (all theorems hold for every such predicate).
* Pointers in trees: the AST and box trees are owned trees, no sharing, no cycles. For box
  trees this is justified by C94: `Heap.v` models the same code with nodes as mutable
  objects, and the two agree for everything Parse builds. Boxes that a caller builds with
  a node in two places are outside the tree model.
* Panics are values; deferred functions run on panic are irrelevant because the
  parser object is not reachable after a panic.
* Float to integer conversion of NaN and out-of-range values is that of amd64; no
  fused multiply-add (which Go allows on other architectures).
* One font backend per box tree (nodes keep no pointer to their backend).
* `strconv.ParseFloat` is an arbitrary partial function (`parse_float`).
* `Render`: the drawing calls of `Ship` are carried out on the backend after the
  traversal instead of during it (the traversal does not read the backend).
* mtex-render: the output path does not alias another path of interest;
  `gg.NewContext` does not run out of memory.

## 2. Method

Statements are separated from the model: the vocabulary of the theorems is in small
specification files (`Grammar.v`, `TreeSpec.v`, `RoundSpec.v`, `BoundarySpec.v`,
`AstSpec.v`, `PanicSpec.v`, `PackSpec.v`, `ShipSpec.v`, `MtexSpec.v`, `FracSpec.v`,
`ReadSpec.v`, `GeomSpec.v`, `SizeSpec.v`, `PicSpec.v`, `SideSpec.v`, `TtfSpec.v`, or at the head of the `Prop*.v`
file), which do not mention the parser, the packing or the traversal. Beside the
theorems, `Example`s exhibit concrete cases that meet the hypotheses.

Lexer/parser: `lex1` returns a lexeme with the skipped whitespace, the raw extent,
the token and the rune that follows. A separate inductive grammar says which token
sequence a tree stands for; the parser is proved sound and complete for it, and
termination (fuel sufficiency) by a length measure.

Boxes: law-free statements are proved for any number type, hence for float64 bit
for bit; statements that need arithmetic are proved in exact arithmetic (names
ending in `_exact`), or for float64 from the IEEE facts of Flocq; failures in
float64 are shown by witnesses.

mtex: a program logic for the visitor (`MtexHoare.v`), a simulation between two
backends (`MtexSim.v`), and structural induction over syntax trees.

## 3. Trusted base
* Coq's kernel with `vm_compute` (and `coqchk`, run by the gate).
* The axioms of the standard library listed in section 5; no axioms of our own.
  Theorems about float64 use the specification of primitive floats
  (`FloatAxioms`), and where Flocq links them to the reals, the axioms of the
  standard library's reals.
* The faithfulness of the model: every definition cites the lines of /repo it
  models; the simplifications are those above and the ones stated there.
* The parts of the Go standard library modelled from their published behaviour
  (`unicode/utf8`, `text/scanner`, `strconv.Quote`, `sync.Once`, `flag`, maps, IEEE 754
  arithmetic of the compiler).
* The table generator `tools/gentables.py`, which copies the tables of /repo into
  Coq lists.

