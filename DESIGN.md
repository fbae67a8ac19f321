# Formal model of go-latex/latex in Rocq (Coq 8.16.1)

The properties are in `properties.jsonl` (generated by `tools/mkprops.py`), the
status of each in `MANIFEST.json`, the model and the proofs in `rocq/theories`, the
record of the tests against wrong programs in `seeded/LOG.jsonl`. This file is
generated by `tools/mkdesign.py` (sections 1-3 from `tools/design_head.md`).

## 1. How the code is modelled

| part of /repo | model | notes |
|---|---|---|
| `unicode/utf8` decoding, `text/scanner`, `strconv.Quote` (Go standard library, **not** in /repo) | `Utf8.v`, `GoScanner.v`, `Quote.v` | written from the documented/published behaviour of the standard library; trusted. |
| `scanner.go` | `Lexer.v` | every `Next` is a function from the remaining characters to a lexeme. |
| `parser.go`, `macros.go` | `Parser.v`; tables generated by `tools/gentables.py` into `MacroTable.v` | panics are values; recursion on explicit fuel, exhaustion is a third result proved unreachable. |
| `ast/*.go` | `Ast.v` | `nil` is the explicit node `NNil`; `Walk` is parametrised by an arbitrary stateful visitor. |
| `token/*.go` | `Token.v` | |
| `mtex/symbols`, `internal/tex2unicode` | `Symbols.v`, generated `SetTable.v`, `SymTable.v` | a Go map is an association list; iteration order is an arbitrary permutation (`fair`). |
| `tex/*.go` (boxes, glue, packing, scaling) | `Arith.v`, `Box.v` | numbers are a record of operations, instantiated with binary64 (Coq's primitive floats, bit for bit) and with exact rationals extended by infinities and NaN (`Exact.v`). |
| `tex/box.go` (Ship), `tex/utils.go` | `Ship.v` | the traversal with its mutable cursor, as a function from state to state and drawing events. |
| `mtex/parser.go`, `mtex/macros.go` | `Mtex.v`, generated `MtexTable.v` | the visitor over `Ast.walk`, over an arbitrary stateful font backend. |
| `tex/box.go`, `mtex/parser.go` again | `Heap.v` | nodes as pointers into a heap, changed in place, every access a step (C94); `ConcSpec.v` runs such programs, and Render, as goroutines (C95). |
| `tex/box.go`, `mtex/parser.go` again | `LogMtex.v` | with the lines written to the standard logger (C96); results proved equal to those of `Mtex.v`. |
| `mtex/render.go` | `Render.v` | |
| `drawtex/canvas.go`, `font/ttf/ttf.go` | `Ttf.v` | the sfnt/opentype library and `unicode.L` are arbitrary oracles (record `sfnt`). |
| `drawtex/drawimg/drawimg.go` | `Render.v` | as the list of calls to the gg library; what gg does with them (pixels, PNG encoding) is not modelled beyond the current font, path and context size. |
| `drawtex/drawpdf`, `cmd/mtex-render/gio.go` (Render only) | `Backends.v` | as lists of calls to the pdf and gio libraries. |
| `font/lm`, `font/liberation` | `Once.v` | explicit-step state machine for `sync.Once` and any number of goroutines. |
| `cmd/mtex-render/gio.go` (event loop) | `Gui.v` | window events, visible widgets and their order, text and clicks are arbitrary inputs; the gio library, the headless window and PNG decoding are oracles. |
| `mtex/symbols/gen-symbols.go` | `GenSyms.v` | the Python process and the order of map iteration are arbitrary; writes to the created file succeed. |
| `ci/run-tests.go` | `Ci.v` | commands and file operations as events; results of commands and I/O failures are arbitrary; flag parsing omitted. |
| `cmd/mtex-render/main.go` | `Cli.v` | flags (package flag), file operations as a list of steps with crash points. |

Validation of the model: `Conform*.v` (generated by `tools/genconform.py`) replay
the tests of /repo (parser, printer, symbols, boxes, mtex with the fake backend of
`internal/fakebackend`) on the model by computation; they are tests of the model,
not proofs of properties.

Log lines of packing are modelled in Warn.v (one packing, C90) and LogMtex.v (all those of a call of Parse, C96); the layout code itself (Box.v, Mtex.v) leaves them out.
Not modelled: other log and stderr output, the generator of the
fake backend, the fake backend except for the numbers used in the conformance examples, the contents of font files.

### Simplifications common to all parts
* Go `int`/`token.Pos` is `Z` (no wrap-around: offsets are bounded by the input length).
* Go strings are Coq `string`s of bytes.
* `unicode.IsLetter` is exact on ASCII and an arbitrary predicate `uni_letter`
  on runes >= 128 (all theorems hold for every such predicate).
* Pointers in trees: the AST and box trees are owned trees, no sharing, no cycles. For box
  trees this is justified by C94: `Heap.v` models the same code with nodes as mutable
  objects, and the two agree for everything Parse builds. Boxes that a caller builds with
  a node in two places are outside the tree model.
* Panics are values; deferred functions run on panic are irrelevant because the
  parser object is not reachable after a panic.
* Float to integer conversion of NaN and out-of-range values is that of amd64; no
  fused multiply-add (which Go allows on other architectures).
* One font backend per box tree (nodes keep no pointer to their backend).
* `strconv.ParseFloat` is an arbitrary partial function (`parse_float`).
* `Render`: the drawing calls of `Ship` are carried out on the backend after the
  traversal instead of during it (the traversal does not read the backend).
* mtex-render: the output path does not alias another path of interest;
  `gg.NewContext` does not run out of memory.

## 2. Method

Statements are separated from the model: the vocabulary of the theorems is in small
specification files (`Grammar.v`, `TreeSpec.v`, `RoundSpec.v`, `BoundarySpec.v`,
`AstSpec.v`, `PanicSpec.v`, `PackSpec.v`, `ShipSpec.v`, `MtexSpec.v`, `FracSpec.v`,
`ReadSpec.v`, `GeomSpec.v`, `SizeSpec.v`, `PicSpec.v`, `SideSpec.v`, `TtfSpec.v`, or at the head of the `Prop*.v`
file), which do not mention the parser, the packing or the traversal. Beside the
theorems, `Example`s exhibit concrete cases that meet the hypotheses.

Lexer/parser: `lex1` returns a lexeme with the skipped whitespace, the raw extent,
the token and the rune that follows. A separate inductive grammar says which token
sequence a tree stands for; the parser is proved sound and complete for it, and
termination (fuel sufficiency) by a length measure.

Boxes: law-free statements are proved for any number type, hence for float64 bit
for bit; statements that need arithmetic are proved in exact arithmetic (names
ending in `_exact`), or for float64 from the IEEE facts of Flocq; failures in
float64 are shown by witnesses.

mtex: a program logic for the visitor (`MtexHoare.v`), a simulation between two
backends (`MtexSim.v`), and structural induction over syntax trees.

## 3. Trusted base
* Coq's kernel with `vm_compute` (and `coqchk`, run by the gate).
* The axioms of the standard library listed in section 5; no axioms of our own.
  Theorems about float64 use the specification of primitive floats
  (`FloatAxioms`), and where Flocq links them to the reals, the axioms of the
  standard library's reals.
* The faithfulness of the model: every definition cites the lines of /repo it
  models; the simplifications are those above and the ones stated there.
* The parts of the Go standard library modelled from their published behaviour
  (`unicode/utf8`, `text/scanner`, `strconv.Quote`, `sync.Once`, `flag`, maps, IEEE 754
  arithmetic of the compiler).
* The table generator `tools/gentables.py`, which copies the tables of /repo into
  Coq lists.


## 4. Property by property

| id | property | what is modelled, and how it is proved | theorems (file) |
|---|---|---|---|
| C01 | ParseExpr always terminates and never reports an error value | `parse_expr` by fuel; a length measure shows the fuel never runs out; each panic is traced to a token of the stream (PanicSpec.v). *Note:* The error result is constantly nil in the source (parser.go:16-19); the model's result type has no error case. | proved: `C01_terminates`, `C01_panic_causes` (PropParse.v) |
| C02 | Tokens tile the source | Induction over the remaining characters: lexemes and the skipped blanks concatenate to the source. | proved: `C02_lexing_total`, `C02_tokens_tile`, `C02_tokens_tile_all` (PropParse.v) |
| C03 | Token text is the source text at the token position | Case analysis of one lexer step; every token's text is the slice of the source at its position. | proved: `C03_token_text`, `C03_comment_text` (PropParse.v) |
| C04 | Every leaf of a parsed tree carries its source text at its position | From C03 through the grammar: leaves are tokens. | proved: `C04_leaf_text` (PropParse.v) |
| C05 | Parsed trees follow the grammar and account for every token | The inductive grammar of Grammar.v; soundness and completeness of the parser for it. *Note:* Braces, comments and spaces are accounted for by the grammar (C05_grammar). | proved: `C05_grammar`, `C05_tokens` (PropParse.v) |
| C06 | Parsing inverts printing to LaTeX source (round trip) | Documents and their source text in RoundSpec.v; lexing the printed text, then completeness of the grammar. *Note:* Well-formedness: names from the macro table, arguments matching the signature, neighbouring tokens that do not run together (RoundSpec.v). Numbers are digit strings. | proved: `C06_round_trip`, `C06_round_trip_prefix` (PropRound.v) |
| C07 | Macro nodes match the macro table | Invariant of parsed trees by induction over the grammar. | proved: `C07_macro_nodes` (PropParse.v) |
| C08 | Unknown macros are rejected wherever they occur at top level | A known-macro check on every macro token the parser reaches; composition gives the top-level statement. | proved: `C08_unknown_never_accepted`, `C08_unknown_at_top_level` (PropCompose.v) |
| C09 | Spaces are significant in text and ignored in math | Induction over the grammar: blanks in math are skipped, in text kept. | proved: `C09_no_blank_in_math`, `C09_spaces_kept_in_text` (PropParse.v) |
| C10 | Math mode is left exactly where it was entered | The mode is a parameter of the grammar; the remaining stream after a complete formula is parsed in text mode. | proved: `C10_mode_restored`, `C10_text_after_complete` (PropCompose.v) |
| C11 | Comments do not change the tree | Lexing around a comment (LexTail.v) and composition. | proved: `C11_comment_adds_nothing`, `C11_insert_comment`, `C11_quote_swallows_next_line` (PropCompose.v) |
| C12 | Parsing is compositional | Parsing a concatenation (Compose.v): the grammar is compositional where no token straddles the boundary. | proved: `C12_composition`, `C12_plain_text_complete` (PropCompose.v) |
| C13 | Unclosed groups are accepted silently | The grammar allows a missing closer with position 0; characterised by the end of the stream. | proved: `C13_delimiters` (PropParse.v) |
| C14 | No nil nodes except as script operands | Induction over the grammar. | proved: `C14_nil_nodes` (PropParse.v) |
| C15 | Walk visits depth-first, in order, with matching nil calls | `walk` over an arbitrary stateful visitor against a list of visits defined by recursion on the tree. *Note:* Inspect is an instance (inspect is defined by walk). | proved: `C15_walk_calls`, `C15_walk_order`, `C15_walk_prune` (PropAst.v) |
| C16 | Walk panics on nil children | As C15; parsed trees through C14. | proved: `C16_walk_panics_iff_nil`, `C16_parsed_tree_panics` (PropAst.v) |
| C17 | Print never panics and identifies the tree up to positions and delimiters | `print` is total by construction; injectivity up to positions by a prefix-code argument. *Note:* The %q quoting is a parameter with the hypothesis self_delimiting; C17_quote discharges it for strconv.Quote on ASCII. | proved: `C17_print_total`, `C17_parsed_trees_print`, `C17_print_identifies`, `C17_quote` (PropAst.v) |
| C18 | Node extents are ordered | Induction over the grammar with the order of token positions. | proved: `C18_extents`, `C18_end_is_closer` (PropParse.v) |
| C19 | Kind names are total and distinct | Finite sweep lifted to all kinds, and the default branch for all other integers. | proved: `C19_declared_names`, `C19_constants`, `C19_other_names`, `C19_total`, `C19_injective` (PropSymbols.v) |
| C20 | Symbol sets behave as finite sets | Maps as association lists with arbitrary iteration order; set laws by induction. *Note:* Map iteration order is an arbitrary permutation (hypothesis fair). | proved: `C20_new_set_has`, `C20_union_has`, `C20_keys`, `C20_keys_deterministic`, `C20_is_spaced` (PropSymbols.v) |
| C21 | Index maps symbols to runes exactly as documented | Case analysis of Index, finite sweep over the generated table. | proved: `C21_text`, `C21_text_panic`, `C21_math`, `C21_has_symbol`, `C21_names_index` (PropSymbols.v) |
| C22 | UTF-8 decoding of source text | Decoder against the encoder; losslessness of the rune/width sequence by induction. | proved: `C22_decode_encode`, `C22_lossless` (PropParse.v) |
| C23 | HPack sets the requested width exactly | Unfolding of `hpack`, any arithmetic. *Note:* Holds bit for bit in float64 (any arithmetic). | proved: `C23_hpack_width` (PropPack.v) |
| C24 | A packed horizontal list encloses its children | Fold invariants with the order laws of OrderLaws.v, which hold for float64 and exact numbers. *Note:* Proved for float64 (from the IEEE 754 facts in Coq.Floats/Flocq) and for exact arithmetic. | proved: `C24_hpack_encloses`, `C24_float64`, `C24_exact` (PropPack.v) |
| C25 | VPack height, depth and width laws | Fold invariants; the sum law in exact arithmetic. *Note:* Width, depth and requested height for float64; the sum law in exact arithmetic (float64 addition is not associative). | proved: `C25_vpack_dims`, `C25_vpack_float64`, `C25_vpack_panics`, `C25_vpack_total_exact` (PropPack.v) |
| C26 | Glue setting distributes exactly the missing or excess space | Case analysis of the glue order; field arithmetic for the filling law. *Note:* Choice of order and sign for any arithmetic incl. float64; the filling law in exact arithmetic. | proved: `C26_hpack_glue`, `C26_vpack_glue`, `C26_glue_fills_exact` (PropPack.v) |
| C27 | Kerning insertion preserves the content | Induction over the list, for any backend. | proved: `C27_kerning`, `C27_kerning_value`, `C27_content_kept` (PropPack.v) |
| C28 | Shrink and Grow scale the whole tree | Recursion on the tree; exact arithmetic for the inverse, a float64 witness against it. *Note:* Accents are measured again at the new size instead of being scaled (C28_accent). Inverse in exact arithmetic, refuted in float64. | proved: `C28_shrink_grow`, `C28_accent`, `C28_inverse_exact`, `C28_not_inverse_float64` (PropPack.v) |
| C29 | Shrinking has no floor | Induction on the number of shrinks. *Note:* The documented floor does not exist. | proved: `C29_every_shrink_scales`, `C29_no_floor_exact` (PropPack.v) |
| C30 | Packing commutes with scaling | Exact arithmetic: scaling distributes over every fold of packing. *Note:* Exact arithmetic. | proved: `C30_shrink_hpack_commute`, `C30_shrink_vpack_commute` (PropPack.v) |
| C31 | Shipping renders each glyph and rule once, in order, at its layout position | The traversal (Ship.v) is proved to refine a stateless specification (ShipSpec.v: `draws`, `place`) by mutual induction on trees. *Note:* Any arithmetic incl. float64. Nested lists are located by the inductive relation place. | proved: `C31_ship_output`, `C31_glyph_order`, `C31_char_position` (PropShip.v) |
| C32 | Shipping the same tree twice gives the same output | The refinement makes the output a function of the tree and the start. | proved: `C32_ship_again` (PropShip.v) |
| C33 | Shipping is translation invariant | Exact arithmetic on ShipSpec's `draws`. *Note:* Exact arithmetic. | proved: `C33_translation_exact` (PropShip.v) |
| C34 | Shipped content fills the packed width | Exact arithmetic: telescoping sum of advances and glue. *Note:* Exact arithmetic; difference limited to 10^9, the clamp range of the code. | proved: `C34_advance_exact`, `C34_fills_width_exact`, `C34_last_char_exact` (PropShip.v) |
| C35 | Push depth is balanced | Invariant of the traversal. | proved: `C35_push_depth` (PropShip.v) |
| C36 | When shipping panics | `stuck` characterises panics; trees built with the constructors are never stuck (induction on construction). *Note:* stuck is the panic condition; built ranges over the exported constructors and methods. | proved: `C36_panics_iff`, `C36_built_never_panics_generic`, `C36_built_never_panics` (PropShip.v) |
| C37 | Vertical advance agrees with packing except for flat boxes | Exact arithmetic; the flat-box disagreement is proved too. *Note:* Exact arithmetic, with the failing flat-box case proved as well. | proved: `C37_flat_box_skipped`, `C37_vertical_advance_exact`, `C37_last_baseline_exact`, `C37_flat_box_disagrees_exact` (PropShip.v) |
| C38 | Running rules fill the enclosing box | Case analysis of ShipSpec. | proved: `C38_running_rule_h`, `C38_running_rule_v` (PropShip.v) |
| C39 | mtex.Parse terminates and its outcome is determined by the tree | The visitor is a structural recursion; its outcome is compared with a predicate on trees. | proved: `C39_outcome`, `C39_accepts`, `C39_walk` (PropMtex.v) |
| C40 | Sub- and superscripts are never rendered | Case analysis of the visitor. | proved: `C40_scripts_panic` (PropMtex.v) |
| C41 | Which math symbols mtex accepts | Finite sweep over the symbol classes, lifted. | proved: `C41_math_symbols` (PropMtex.v) |
| C42 | Groups directly inside math are dropped | Case analysis of Visit on lists in math; congruence of the result in the dropped content. | proved: `C42_groups_dropped`, `C42_content_irrelevant` (PropMtex.v) |
| C43 | The font type and math flag are restored after math | The state of the visitor is compared before and after, by induction. | proved: `C43_restored`, `C43_sequence`, `C43_inside` (PropMtex.v) |
| C44 | Every macro that parses has a typesetting handler | Finite sweep over the macro table, lifted to all parsed trees through C07. | proved: `C44_known_handled`, `C44_parsed_handled` (PropMtex.v) |
| C45 | Fraction layout | The tree built by the handler is compared with FracSpec.v; centring in exact arithmetic. | proved: `C45_frac_generic`, `C45_binom_generic`, `C45_frac`, `C45_binom`, `C45_centred_exact` (PropMtex.v) |
| C46 | Operator spacing | As C45. | proved: `C46_spacing_generic`, `C46_spacing` (PropMtex.v) |
| C47 | Render passes the right dimensions and drawing to the renderer | Unfolding of `render`, with C31 for the drawing. | proved: `C47_render_generic`, `C47_error_generic`, `C47_dpi_generic`, `C47_render`, `C47_error`, `C47_dpi` (PropRender.v) |
| C48 | The canvas is an append-only log | Induction over requests. | proved: `C48_canvas_log`, `C48_backend_log` (PropTtf.v) |
| C49 | Font metrics do not depend on the call history | Invariant: every cache entry is the fresh answer to some earlier request. | proved: `C49_history_independent_generic`, `C49_history_independent`, `C49_first_wins` (PropTtf.v) |
| C50 | TrueType metrics are consistent | Field arithmetic on `glyph_val`; order facts of float64 for the float statement. | proved: `C50_consistent_exact`, `C50_consistent_float`, `C50_linear_exact`, `C50_char_height_exact` (PropTtf.v) |
| C51 | Fonts are parsed once and shared by all goroutines | Invariant over all interleavings of an explicit state machine, with a race-freedom statement on accesses. | proved: `C51_parsed_at_most_once`, `C51_same_value`, `C51_never_changes`, `C51_bad_file`, `C51_no_race`, `C51_no_deadlock` (PropOnce.v) |
| C52 | Typeset expressions can be shipped | C36 through the program logic: everything the visitor builds comes from the constructors. | proved: `C52_built`, `C52_ship_never_panics` (PropMtex.v) |
| C53 | Only letters are italic | Case analysis of getGlyph. | proved: `C53_nonletters_upright`, `C53_letters_italic` (PropTtf.v) |
| C54 | Kerning is zero across fonts and is not scaled | Case analysis of Kern. | proved: `C54_kern_zero`, `C54_kern_unscaled` (PropTtf.v) |
| C55 | Faces of the TrueType backend | Case analysis of the font map. | proved: `C55_bold_italic_unused`, `C55_unknown_type_panics`, `C55_face_drawn` (PropTtf.v) |
| C56 | Characters are drawn with the metrics they were laid out with | Program logic: all characters of a typeset tree were measured by the backend; drawing looks up the same cache entry. | proved: `C56_drawn_as_measured_generic`, `C56_drawn_as_measured` (PropRender.v) |
| C57 | Formulas that can be laid out can be drawn | As C56, with math-mode requests only. | proved: `C57_math_renders_generic`, `C57_math_renders` (PropRender.v) |
| C58 | The PNG renderer draws the canvas at the right size | The calls to gg are interpreted by a small drawing machine (contexts, path, face, marks). | proved: `C58_image`, `C58_size_float`, `C58_size_exact`, `C58_larger_exact`, `C58_render_png` (PropImage.v) |
| C59 | What is drawn is what was written, in reading order | Program logic with a reading function on trees against one on syntax trees (ReadSpec.v). | proved: `C59_glyphs`, `C59_reading` (PropRead.v) |
| C60 | Fractions are drawn where they should be | Exact arithmetic on the layout tree and ShipSpec, against GeomSpec.v. | proved: `C60_fraction`, `C60_binom` (PropGeom.v) |
| C61 | Overlines are drawn above their body | Generic tree shape, then arithmetic against GeomSpec.v. | proved: `C61_overline_generic`, `C61_overline_exact`, `C61_overline_float64` (PropGeom.v) |
| C62 | Radicals are drawn around their body | As C61. | proved: `C62_sqrt_generic`, `C62_sqrt_exact`, `C62_sqrt_float64` (PropGeom.v) |
| C63 | Delimiters reach as high and as deep as asked | Exact arithmetic. | proved: `C63_auto_height_exact` (PropGeom.v) |
| C64 | The size of a typeset expression follows from its glyphs | Structural induction over syntax trees against SizeSpec.v, for any backend that is measured by the given measurements. | proved: `C64_size` (PropSize.v) |
| C65 | Sizes of parts add up; spaces add exactly their width | Corollaries of C64. | proved: `C65_parts`, `C65_space`, `C65_space_math` (PropSize.v) |
| C66 | Typesetting is proportional to size and resolution | C64 and an induction showing that SizeSpec scales. | proved: `C66_scaling` (PropSize.v) |
| C67 | mtex-render changes only its output file, at every crash point | The command as a list of file operations; every prefix is a crash point. | proved: `C67_crash_generic`, `C67_success_generic`, `C67_succeeds_generic`, `C67_error_generic`, `C67_lost_generic`, `C67_untouched_generic`, `C67_crash`, `C67_success`, `C67_succeeds`, `C67_error`, `C67_lost`, `C67_untouched` (PropCli.v) |
| C68 | The flags of mtex-render | The flag parser against an inductive description of command lines. | proved: `C68_flags`, `C68_help`, `C68_status_generic`, `C68_status` (PropCli.v) |
| C69 | The glyph cache cannot be noticed when formulas are laid out | Simulation (MtexSim.v) between the caching backend and a stateless one; invariant of C49. | proved: `C69_cache_transparent` (PropFormula.v) |
| C70 | The size of the picture of a formula follows from the fonts | C69 and C64, then Render and the PNG renderer. | proved: `C70_box`, `C70_picture`, `C70_pixels`, `C70_scaling` (PropFormula.v) |
| C71 | The PDF writer draws nothing | The calls on fpdf, interpreted by a small machine of documents and pages. | proved: `C71_blank_page`, `C71_canvas_ignored` (PropBackends.v) |
| C72 | The GUI renderer shows every operation once and restores the gio state | The operations added to gio's list, interpreted by a machine with saved states, offsets and clip areas; float32 is an arbitrary type. | proved: `C72_gio`, `C72_saves` (PropBackends.v) |
| C73 | Glue by name | Finite sweep over pairs of kinds for the setting, arithmetic for the position (ShipSpec). | proved: `C73_kinds`, `C73_share_exact`, `C73_centred`, `C73_middle_exact` (PropMake.v) |
| C74 | Characters take their advance | Induction over the list, exact arithmetic. | proved: `C74_char_exact`, `C74_row_exact`, `C74_unkerned_exact` (PropMake.v) |
| C75 | Lines and x-heights of the TrueType backend | Unfolding and field arithmetic. | proved: `C75_line_exact`, `C75_line_float64`, `C75_xheight` (PropMake.v) |
| C76 | The picture of an expression | PicSpec.v: figures, drawn by a small interpreter, built from the syntax tree without boxes or glue. Invariant: every box ships the ink of its figure at every scale and position (PicFacts*.v), induction over the syntax tree. | proved: `C76_picture`, `C76_parts`, `C76_truetype` (PropPic.v) |
| C77 | Nothing is cut off | Induction over the figure: a figure stays within its height and depth up to n/2 pixels, n the nesting of bars (RoomFacts.v); then C76. | proved: `C77_room`, `C77_no_bars`, `C77_truetype` (PropPic.v) |
| C78 | The PNG image of a formula | Composition of C76/C77 (the ink at 72 dpi), C57 (the canvas operations of a formula) and C58 (what the PNG renderer paints). | proved: `C78_image`, `C78_complete` (PropPng.v) |
| C79 | The GUI shows the expression entered last | The event loop as a function of the history of window events; an invariant relates its state to a declarative reading of the history (what was typed and submitted when). | proved: `C79_frame_generic`, `C79_script_generic`, `C79_frame`, `C79_script` (PropGui.v) |
| C80 | How the GUI ends, and the files it writes | The same; the file operations of each event. | proved: `C80_end_generic`, `C80_status_generic`, `C80_ended_generic`, `C80_screenshot_generic`, `C80_files_generic`, `C80_end`, `C80_status`, `C80_ended`, `C80_screenshot`, `C80_files` (PropGui.v) |
| C81 | Rounding errors do not build up | Flocq's bound for one addition, chained by induction over the terms; the coordinates of C31 written as folds over the distances on the way. | proved: `C81_width`, `C81_drift`, `C81_drift_y`, `C81_width_in_range` (PropError.v, PropRows.v) |
| C82 | Grow undoes Shrink up to rounding | Flocq's bound for one multiplication, applied twice, with the exact values of the two constants; induction over the tree. | proved: `C82_round_trip` (PropError.v) |
| C83 | Nothing is drawn left or right of an expression's box | Induction over the figure of C76: a figure stays within the width of its piece (SideFacts.v; rounding of glue moves nothing out of a centred box), then C76 and C64. | proved: `C83_sides`, `C83_truetype` (PropSide.v) |
| C84 | No two parts of an expression overlap | Induction over the figure: stays within its width, height and depth and has no overlaps (SideFacts2.v), then C76. | proved: `C84_apart`, `C84_truetype` (PropSide.v) |
| C85 | The symbol table generator writes what it was told, reproducibly | A reader of the generated file (lines, Go string literals) as specification; induction over sets and elements; sorting by uniqueness of sorted permutations. ConformGen.v: the model's output for the tables is symbols_gen.go, line by line. | proved: `C85_declares`, `C85_reproducible`, `C85_failure`, `C85_status`, `C85_asked` (PropGen.v) |
| C86 | Metrics in design units: extents are right, advances only at 2048 units per em | Invariant over histories: every glyph on the canvas comes from one evaluation of getInfo's formula; then integer rounding arguments (PropUnits.v). | proved: `C86_units_exact`, `C86_advance_iff` (PropUnits.v) |
| C87 | Flat formulas in float64 | Invariant of the visitor: only letters, gaps and naturally packed rows are added (PropRows.v); a relation for nested rounded sums with the bound of C81; maxima of finite float64 numbers are exact. | proved: `C87_width`, `C87_width_in_range`, `C87_extent`, `C87_positions`, `C87_positions_in_range` (PropRows.v) |
| C88 | The lexical grammar | The grammar is an inductive relation of its own (LexSpec.v), written with maximal munch conditions; each scanner function of the model is proved equivalent to its nonterminal (PropLex.v), then induction over the token stream. | proved: `C88_tokens`, `C88_unique`, `C88_total`, `C88_exclusive`, `C88_parsed`, `C88_unhandled` (PropLex.v) |
| C89 | Trees and drawings are no larger than their source | A cost of trees, at least the number of nodes, the depth and the number of marks shown (C59), at most the length of the tokens by induction over the grammar (C05), at most the length of the source (C02, C88). | proved: `C89_nodes`, `C89_depth`, `C89_calls` (PropCost.v) |
| C90 | When packing warns | Warn.v models the log lines of setGlue, HPack and VPack; the relation `warning` (functional) says which line is due from the totals of PackSpec.v; the log is proved to satisfy it for every arithmetic; natural packing is silent by (0+x)-x = 0 for finite floats (Flocq's Bplus/Bminus_correct). | proved: `C90_hpack`, `C90_vpack`, `C90_natural_float64`, `C90_natural_exact`, `C90_centred`, `C90_centred_float64`, `C90_fill` (PropWarn.v) |
| C91 | Sizes of formulas in float64 | Every float64 quantity of the layout carries a weight m with |x - q| <= m*N*B*2^-53 and |q| <= m*B (Apx.v: sums, maxima, products with constants, cancellation of the stacked heights by Flocq's error bounds); the weights follow the structure of C64's proof (SizeApx.v) and are bounded by the cost of C89, so by the length of the source. | proved: `C91_size`, `C91_bound` (PropApx.v) |
| C92 | Sizes of formulas typeset with TrueType fonts, in float64 | FontSim.v: backends that agree on one size typeset unresized expressions alike (simulation as in C69), so the cache is transparent (C49). TtfRound.v bounds the rounding of the scaling steps (Flocq), PropSizeTtf.v shows that the fresh float64 backend measures (ApxSpec.measured64) what the exact model of the same fonts says; then C91 and C47, with ceil exact. | proved: `C92_box`, `C92_picture`, `C92_pixels` (PropSizeTtf.v) |
| C93 | The CI test runner is honest | Ci.v models the runner as a list of events (commands with their results, creation, appends, removal) against an arbitrary machine (results of commands, I/O failures); bufio.Scanner and strings.Contains as functions on strings. Induction over the packages gives one lemma (how far the loop came and why it stopped), from which the theorems follow; flag parsing is not modelled again (C68). | proved: `C93_packages`, `C93_long_line`, `C93_arguments`, `C93_success`, `C93_failure`, `C93_passes`, `C93_coverage`, `C93_complete` (PropCi.v) |
| C94 | Parsed boxes share nothing | Heap.v is the layout code again with nodes as cells of a heap as programs whose reads, writes and allocations are single steps (the visitor's lists, children, Shrink, Grow, packing and Ship go through pointers). HeapFacts.v is a small separation logic: ownership of nodes that holds whatever others do to the rest of the heap, and a triple that relates a tree program and a heap program that owns disjoint trees, with a frame rule; HeapSim*.v prove it for every function (the recursion is as deep as the tree, so bounded by the number of objects), HeapShip.v for Ship by induction over the tree; PropHeap.v composes them over histories. | proved: `C94_parse`, `C94_shrink`, `C94_grow`, `C94_pack`, `C94_ship`, `C94_history`, `C94_shared` (PropHeap.v) |
| C95 | Goroutines do not disturb each other | ConcSpec.v runs programs of Heap.v as goroutines on one heap, one access per step, in the order an arbitrary schedule says, and records the accesses. PropConc.v: the invariant is that every goroutine is safe (HeapFacts.v: from here on it touches only nodes it made itself, whatever the others do, and ends as its tree program does) and that no node was made by two; every step keeps it. Ending follows by induction over the program, which every step makes smaller. Each goroutine has its own backend (Render makes one per call); one backend shared by goroutines would race on its cache, and the symbol tables and the fonts are only read. A panic is recorded for its goroutine only (in Go, not recovered, it ends the process). | proved: `C95_calls`, `C95_apart`, `C95_no_race`, `C95_ends`, `C95_render`, `C95_render_returns` (PropConc.v) |
| C96 | Typesetting writes nothing to the log | LogMtex.v is Mtex.v again with the packing functions also giving the log lines of Warn.v (result and lines of every call); LogFacts.v: the results are those of Mtex.v. LogQuiet.v: an invariant over the walk, generic in the arithmetic, bounds every dimension by a multiple of the largest measurement that grows by a constant per byte, so nothing overflows; every list is packed either to its natural size (x - x = 0), or with ss glue (HCentered), or stretched with fill (the room above a bar is at least the bar). LogFloat.v proves the arithmetic laws used for float64 (Flocq) and exact numbers; LogRoot.v does \sqrt in exact arithmetic. In float64 the radical sign's height is rounded, so \sqrt is left out there. PropLogTtf.v: the TrueType backend: every cached glyph is the one computed for its key, its numbers come from 32-bit integers and the font size, so all are moderate; a font resized by AutoHeightChar (\binom, \sqrt) may have any size, so these are left out there. C90 says when one packing writes a line. | proved: `C96_same`, `C96_exact`, `C96_roots`, `C96_float`, `C96_truetype`, `C96_render` (PropLog.v, PropLogTtf.v) |
| C97 | Pictures in float64 | PicApx.v, PicApx2.v, PicApxBar.v, PicApx3.v redo C76's proof with the weights of C91: a box looks like a figure if, whatever number of times it is shrunk and at whatever position it is drawn (both known up to a weight), the calls are those of the figure up to the tolerance; the weight of positions grows by a factor 6d+1 over that of sizes. The glue of a centred row is one ss glue on each side: its stretched width, rounded to pixels, is within half a pixel of the exact one; the fill glue under a bar likewise (if rounding makes it negative, nothing is dropped). PropPicApx.v: the origin is moved down by the height of the box; the places the marks of a figure can reach, counting the drops they are in, are bounded exactly along with C77's proof (RoomFacts.v), and float64 drops exceed exact ones by at most half a pixel and the tolerance; the TrueType backend via C92's simulation; PropPicRender.v adds C57 for mtex.Render. | proved: `C97_picture`, `C97_room`, `C97_truetype`, `C97_render` (PropPicApx.v, PropPicRender.v) |

No property is listed as impossible to express, and none is partial.

## 5. Print Assumptions

What `Print Assumptions` lists for each theorem of MANIFEST.json (written by `tools/mkdesign.py`). Nothing but the standard library's axioms and primitive constants occurs; primitive floats and integers show up as "axioms" because they are kernel primitives.

* **Closed under the global context** (238 theorems): `C01_terminates`, `C01_panic_causes`, `C02_lexing_total`, `C02_tokens_tile`, `C02_tokens_tile_all`, `C03_token_text`, `C03_comment_text`, `C04_leaf_text`, `C05_grammar`, `C05_tokens`, `C06_round_trip`, `C06_round_trip_prefix`, `C07_macro_nodes`, `C08_unknown_never_accepted`, `C08_unknown_at_top_level`, `C09_no_blank_in_math`, `C09_spaces_kept_in_text`, `C10_mode_restored`, `C10_text_after_complete`, `C11_comment_adds_nothing`, `C11_insert_comment`, `C11_quote_swallows_next_line`, `C12_composition`, `C12_plain_text_complete`, `C13_delimiters`, `C14_nil_nodes`, `C15_walk_calls`, `C15_walk_order`, `C15_walk_prune`, `C16_walk_panics_iff_nil`, `C16_parsed_tree_panics`, `C17_print_total`, `C17_parsed_trees_print`, `C17_print_identifies`, `C17_quote`, `C18_extents`, `C18_end_is_closer`, `C19_declared_names`, `C19_constants`, `C19_other_names`, `C19_total`, `C19_injective`, `C20_new_set_has`, `C20_union_has`, `C20_keys`, `C20_keys_deterministic`, `C20_is_spaced`, `C21_text`, `C21_text_panic`, `C21_math`, `C21_has_symbol`, `C21_names_index`, `C22_decode_encode`, `C22_lossless`, `C23_hpack_width`, `C24_hpack_encloses`, `C24_exact`, `C25_vpack_dims`, `C25_vpack_panics`, `C25_vpack_total_exact`, `C26_hpack_glue`, `C26_vpack_glue`, `C26_glue_fills_exact`, `C27_kerning`, `C27_kerning_value`, `C27_content_kept`, `C28_shrink_grow`, `C28_accent`, `C28_inverse_exact`, `C29_every_shrink_scales`, `C29_no_floor_exact`, `C30_shrink_hpack_commute`, `C30_shrink_vpack_commute`, `C31_ship_output`, `C31_glyph_order`, `C31_char_position`, `C32_ship_again`, `C33_translation_exact`, `C34_advance_exact`, `C34_fills_width_exact`, `C34_last_char_exact`, `C35_push_depth`, `C36_panics_iff`, `C36_built_never_panics_generic`, `C37_flat_box_skipped`, `C37_vertical_advance_exact`, `C37_last_baseline_exact`, `C37_flat_box_disagrees_exact`, `C38_running_rule_h`, `C38_running_rule_v`, `C39_outcome`, `C39_accepts`, `C39_walk`, `C40_scripts_panic`, `C41_math_symbols`, `C42_groups_dropped`, `C42_content_irrelevant`, `C43_restored`, `C43_sequence`, `C43_inside`, `C44_known_handled`, `C44_parsed_handled`, `C45_frac_generic`, `C45_binom_generic`, `C45_centred_exact`, `C46_spacing_generic`, `C47_render_generic`, `C47_error_generic`, `C47_dpi_generic`, `C48_canvas_log`, `C48_backend_log`, `C49_history_independent_generic`, `C50_consistent_exact`, `C50_linear_exact`, `C50_char_height_exact`, `C51_parsed_at_most_once`, `C51_same_value`, `C51_never_changes`, `C51_bad_file`, `C51_no_race`, `C51_no_deadlock`, `C52_built`, `C53_nonletters_upright`, `C53_letters_italic`, `C54_kern_zero`, `C55_bold_italic_unused`, `C55_unknown_type_panics`, `C55_face_drawn`, `C56_drawn_as_measured_generic`, `C57_math_renders_generic`, `C58_image`, `C58_size_exact`, `C58_larger_exact`, `C59_glyphs`, `C59_reading`, `C60_fraction`, `C60_binom`, `C61_overline_generic`, `C61_overline_exact`, `C62_sqrt_generic`, `C62_sqrt_exact`, `C63_auto_height_exact`, `C64_size`, `C65_parts`, `C65_space`, `C65_space_math`, `C66_scaling`, `C67_crash_generic`, `C67_success_generic`, `C67_succeeds_generic`, `C67_error_generic`, `C67_lost_generic`, `C67_untouched_generic`, `C68_flags`, `C68_help`, `C68_status_generic`, `C69_cache_transparent`, `C70_box`, `C70_picture`, `C70_pixels`, `C70_scaling`, `C71_blank_page`, `C71_canvas_ignored`, `C72_gio`, `C72_saves`, `C73_kinds`, `C73_share_exact`, `C73_centred`, `C73_middle_exact`, `C74_char_exact`, `C74_row_exact`, `C74_unkerned_exact`, `C75_line_exact`, `C75_xheight`, `C76_picture`, `C76_parts`, `C76_truetype`, `C77_room`, `C77_no_bars`, `C77_truetype`, `C78_image`, `C78_complete`, `C79_frame_generic`, `C79_script_generic`, `C80_end_generic`, `C80_status_generic`, `C80_ended_generic`, `C80_screenshot_generic`, `C80_files_generic`, `C83_sides`, `C83_truetype`, `C84_apart`, `C84_truetype`, `C85_declares`, `C85_reproducible`, `C85_failure`, `C85_status`, `C85_asked`, `C86_units_exact`, `C86_advance_iff`, `C88_tokens`, `C88_unique`, `C88_total`, `C88_exclusive`, `C88_parsed`, `C88_unhandled`, `C89_nodes`, `C89_depth`, `C89_calls`, `C90_hpack`, `C90_vpack`, `C90_natural_exact`, `C90_centred`, `C90_fill`, `C93_packages`, `C93_long_line`, `C93_arguments`, `C93_success`, `C93_failure`, `C93_passes`, `C93_coverage`, `C93_complete`, `C94_parse`, `C94_shrink`, `C94_grow`, `C94_pack`, `C94_ship`, `C94_history`, `C94_shared`, `C95_calls`, `C95_apart`, `C95_no_race`, `C95_ends`, `C95_render`, `C95_render_returns`, `C96_same`, `C96_exact`, `C96_roots`.

* **`PrimFloat.abs`, `PrimFloat.add`, `PrimFloat.div`, `PrimFloat.eqb`, `PrimFloat.float`, `PrimFloat.frshiftexp`, `PrimFloat.ltb`, `PrimFloat.mul`, `PrimFloat.normfr_mantissa`, `PrimFloat.opp`, `PrimFloat.sub`, `PrimInt63.eqb`, `PrimInt63.int`, `PrimInt63.land`, `PrimInt63.lsr`** (27 theorems): `C28_not_inverse_float64`, `C36_built_never_panics`, `C45_frac`, `C45_binom`, `C46_spacing`, `C47_dpi`, `C50_consistent_float`, `C52_ship_never_panics`, `C54_kern_unscaled`, `C61_overline_float64`, `C62_sqrt_float64`, `C67_crash`, `C67_success`, `C67_succeeds`, `C67_error`, `C67_lost`, `C67_untouched`, `C68_status`, `C75_line_float64`, `C79_frame`, `C79_script`, `C80_end`, `C80_status`, `C80_ended`, `C80_screenshot`, `C80_files`, `C90_centred_float64`.

* **`ClassicalDedekindReals.sig_forall_dec`, `ClassicalDedekindReals.sig_not_dec`, `Classical_Prop.classic`, `FloatAxioms.Prim2SF_SF2Prim`, `FloatAxioms.Prim2SF_valid`, `FloatAxioms.SF2Prim_Prim2SF`, `FloatAxioms.eqb_spec`, `FunctionalExtensionality.functional_extensionality_dep`, `PrimFloat.abs`, `PrimFloat.add`, `PrimFloat.div`, `PrimFloat.eqb`, `PrimFloat.float`, `PrimFloat.frshiftexp`, `PrimFloat.ldshiftexp`, `PrimFloat.ltb`, `PrimFloat.mul`, `PrimFloat.normfr_mantissa`, `PrimFloat.of_uint63`, `PrimFloat.opp`, `PrimFloat.sub`, `PrimInt63.eqb`, `PrimInt63.int`, `PrimInt63.land`, `PrimInt63.lor`, `PrimInt63.lsl`, `PrimInt63.lsr`, `PrimInt63.sub`** (6 theorems): `C47_render`, `C47_error`, `C49_history_independent`, `C49_first_wins`, `C56_drawn_as_measured`, `C57_math_renders`.

* **`ClassicalDedekindReals.sig_forall_dec`, `ClassicalDedekindReals.sig_not_dec`, `Classical_Prop.classic`, `FloatAxioms.Prim2SF_SF2Prim`, `FloatAxioms.Prim2SF_valid`, `FloatAxioms.SF2Prim_Prim2SF`, `FloatAxioms.add_spec`, `FunctionalExtensionality.functional_extensionality_dep`, `PrimFloat.abs`, `PrimFloat.add`, `PrimFloat.div`, `PrimFloat.eqb`, `PrimFloat.float`, `PrimFloat.frshiftexp`, `PrimFloat.ldshiftexp`, `PrimFloat.ltb`, `PrimFloat.mul`, `PrimFloat.normfr_mantissa`, `PrimFloat.of_uint63`, `PrimFloat.opp`, `PrimFloat.sub`, `PrimInt63.eqb`, `PrimInt63.int`, `PrimInt63.land`, `PrimInt63.lor`, `PrimInt63.lsl`, `PrimInt63.lsr`, `PrimInt63.sub`** (7 theorems): `C81_width`, `C81_drift`, `C81_width_in_range`, `C87_width`, `C87_width_in_range`, `C87_positions`, `C87_positions_in_range`.

* **`ClassicalDedekindReals.sig_forall_dec`, `ClassicalDedekindReals.sig_not_dec`, `Classical_Prop.classic`, `FloatAxioms.Prim2SF_SF2Prim`, `FloatAxioms.Prim2SF_valid`, `FloatAxioms.SF2Prim_Prim2SF`, `FloatAxioms.mul_spec`, `FunctionalExtensionality.functional_extensionality_dep`, `PrimFloat.abs`, `PrimFloat.add`, `PrimFloat.div`, `PrimFloat.eqb`, `PrimFloat.float`, `PrimFloat.frshiftexp`, `PrimFloat.ldshiftexp`, `PrimFloat.ltb`, `PrimFloat.mul`, `PrimFloat.normfr_mantissa`, `PrimFloat.of_uint63`, `PrimFloat.opp`, `PrimFloat.sub`, `PrimInt63.eqb`, `PrimInt63.int`, `PrimInt63.land`, `PrimInt63.lor`, `PrimInt63.lsl`, `PrimInt63.lsr`, `PrimInt63.sub`** (1 theorems): `C82_round_trip`.

* **`ClassicalDedekindReals.sig_forall_dec`, `ClassicalDedekindReals.sig_not_dec`, `Classical_Prop.classic`, `FloatAxioms.Prim2SF_SF2Prim`, `FloatAxioms.Prim2SF_valid`, `FloatAxioms.SF2Prim_Prim2SF`, `FloatAxioms.eqb_spec`, `FloatAxioms.ltb_spec`, `FunctionalExtensionality.functional_extensionality_dep`, `PrimFloat.abs`, `PrimFloat.add`, `PrimFloat.div`, `PrimFloat.eqb`, `PrimFloat.float`, `PrimFloat.frshiftexp`, `PrimFloat.ldshiftexp`, `PrimFloat.ltb`, `PrimFloat.mul`, `PrimFloat.normfr_mantissa`, `PrimFloat.of_uint63`, `PrimFloat.opp`, `PrimFloat.sub`, `PrimInt63.eqb`, `PrimInt63.int`, `PrimInt63.land`, `PrimInt63.lor`, `PrimInt63.lsl`, `PrimInt63.lsr`, `PrimInt63.sub`** (2 theorems): `C24_float64`, `C25_vpack_float64`.

* **`ClassicalDedekindReals.sig_forall_dec`, `ClassicalDedekindReals.sig_not_dec`, `Classical_Prop.classic`, `FloatAxioms.Prim2SF_SF2Prim`, `FloatAxioms.Prim2SF_valid`, `FloatAxioms.SF2Prim_Prim2SF`, `FloatAxioms.add_spec`, `FloatAxioms.mul_spec`, `FloatAxioms.opp_spec`, `FunctionalExtensionality.functional_extensionality_dep`, `PrimFloat.abs`, `PrimFloat.add`, `PrimFloat.div`, `PrimFloat.eqb`, `PrimFloat.float`, `PrimFloat.frshiftexp`, `PrimFloat.ldshiftexp`, `PrimFloat.ltb`, `PrimFloat.mul`, `PrimFloat.normfr_mantissa`, `PrimFloat.of_uint63`, `PrimFloat.opp`, `PrimInt63.eqb`, `PrimInt63.int`, `PrimInt63.land`, `PrimInt63.lor`, `PrimInt63.lsl`, `PrimInt63.lsr`, `PrimInt63.sub`** (1 theorems): `C58_size_float`.

* **`ClassicalDedekindReals.sig_forall_dec`, `ClassicalDedekindReals.sig_not_dec`, `Classical_Prop.classic`, `FloatAxioms.Prim2SF_SF2Prim`, `FloatAxioms.Prim2SF_valid`, `FloatAxioms.SF2Prim_Prim2SF`, `FloatAxioms.add_spec`, `FloatAxioms.opp_spec`, `FloatAxioms.sub_spec`, `FunctionalExtensionality.functional_extensionality_dep`, `PrimFloat.abs`, `PrimFloat.add`, `PrimFloat.div`, `PrimFloat.eqb`, `PrimFloat.float`, `PrimFloat.frshiftexp`, `PrimFloat.ldshiftexp`, `PrimFloat.ltb`, `PrimFloat.mul`, `PrimFloat.normfr_mantissa`, `PrimFloat.of_uint63`, `PrimFloat.opp`, `PrimFloat.sub`, `PrimInt63.eqb`, `PrimInt63.int`, `PrimInt63.land`, `PrimInt63.lor`, `PrimInt63.lsl`, `PrimInt63.lsr`, `PrimInt63.sub`** (1 theorems): `C81_drift_y`.

* **`ClassicalDedekindReals.sig_forall_dec`, `ClassicalDedekindReals.sig_not_dec`, `Classical_Prop.classic`, `FloatAxioms.Prim2SF_SF2Prim`, `FloatAxioms.Prim2SF_valid`, `FloatAxioms.SF2Prim_Prim2SF`, `FloatAxioms.add_spec`, `FloatAxioms.eqb_spec`, `FloatAxioms.sub_spec`, `FunctionalExtensionality.functional_extensionality_dep`, `PrimFloat.abs`, `PrimFloat.add`, `PrimFloat.div`, `PrimFloat.eqb`, `PrimFloat.float`, `PrimFloat.frshiftexp`, `PrimFloat.ldshiftexp`, `PrimFloat.ltb`, `PrimFloat.mul`, `PrimFloat.normfr_mantissa`, `PrimFloat.of_uint63`, `PrimFloat.opp`, `PrimFloat.sub`, `PrimInt63.eqb`, `PrimInt63.int`, `PrimInt63.land`, `PrimInt63.lor`, `PrimInt63.lsl`, `PrimInt63.lsr`, `PrimInt63.sub`** (1 theorems): `C90_natural_float64`.

* **`ClassicalDedekindReals.sig_forall_dec`, `ClassicalDedekindReals.sig_not_dec`, `Classical_Prop.classic`, `FloatAxioms.Prim2SF_SF2Prim`, `FloatAxioms.Prim2SF_valid`, `FloatAxioms.SF2Prim_Prim2SF`, `FloatAxioms.add_spec`, `FloatAxioms.eqb_spec`, `FloatAxioms.mul_spec`, `FloatAxioms.opp_spec`, `FunctionalExtensionality.functional_extensionality_dep`, `PrimFloat.abs`, `PrimFloat.add`, `PrimFloat.div`, `PrimFloat.eqb`, `PrimFloat.float`, `PrimFloat.frshiftexp`, `PrimFloat.ldshiftexp`, `PrimFloat.ltb`, `PrimFloat.mul`, `PrimFloat.normfr_mantissa`, `PrimFloat.of_uint63`, `PrimFloat.opp`, `PrimFloat.sub`, `PrimInt63.eqb`, `PrimInt63.int`, `PrimInt63.land`, `PrimInt63.lor`, `PrimInt63.lsl`, `PrimInt63.lsr`, `PrimInt63.sub`** (1 theorems): `C58_render_png`.

* **`ClassicalDedekindReals.sig_forall_dec`, `ClassicalDedekindReals.sig_not_dec`, `Classical_Prop.classic`, `FloatAxioms.Prim2SF_SF2Prim`, `FloatAxioms.Prim2SF_valid`, `FloatAxioms.SF2Prim_Prim2SF`, `FloatAxioms.abs_spec`, `FloatAxioms.add_spec`, `FloatAxioms.eqb_spec`, `FloatAxioms.ltb_spec`, `FloatAxioms.sub_spec`, `FunctionalExtensionality.functional_extensionality_dep`, `PrimFloat.abs`, `PrimFloat.add`, `PrimFloat.div`, `PrimFloat.eqb`, `PrimFloat.float`, `PrimFloat.frshiftexp`, `PrimFloat.ldshiftexp`, `PrimFloat.ltb`, `PrimFloat.mul`, `PrimFloat.normfr_mantissa`, `PrimFloat.of_uint63`, `PrimFloat.opp`, `PrimFloat.sub`, `PrimInt63.eqb`, `PrimInt63.int`, `PrimInt63.land`, `PrimInt63.lor`, `PrimInt63.lsl`, `PrimInt63.lsr`, `PrimInt63.sub`** (1 theorems): `C87_extent`.

* **`ClassicalDedekindReals.sig_forall_dec`, `ClassicalDedekindReals.sig_not_dec`, `Classical_Prop.classic`, `FloatAxioms.Prim2SF_SF2Prim`, `FloatAxioms.Prim2SF_valid`, `FloatAxioms.SF2Prim_Prim2SF`, `FloatAxioms.abs_spec`, `FloatAxioms.add_spec`, `FloatAxioms.div_spec`, `FloatAxioms.eqb_spec`, `FloatAxioms.ltb_spec`, `FloatAxioms.mul_spec`, `FloatAxioms.opp_spec`, `FloatAxioms.sub_spec`, `FunctionalExtensionality.functional_extensionality_dep`, `PrimFloat.abs`, `PrimFloat.add`, `PrimFloat.div`, `PrimFloat.eqb`, `PrimFloat.float`, `PrimFloat.frshiftexp`, `PrimFloat.ldshiftexp`, `PrimFloat.ltb`, `PrimFloat.mul`, `PrimFloat.normfr_mantissa`, `PrimFloat.of_uint63`, `PrimFloat.opp`, `PrimFloat.sub`, `PrimInt63.eqb`, `PrimInt63.int`, `PrimInt63.land`, `PrimInt63.lor`, `PrimInt63.lsl`, `PrimInt63.lsr`, `PrimInt63.sub`** (12 theorems): `C91_size`, `C91_bound`, `C92_box`, `C92_picture`, `C92_pixels`, `C96_float`, `C96_truetype`, `C96_render`, `C97_picture`, `C97_room`, `C97_truetype`, `C97_render`.
