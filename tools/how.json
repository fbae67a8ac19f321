{
 "C01": "`parse_expr` by fuel; a length measure shows the fuel never runs out; each panic is traced to a token of the stream (PanicSpec.v).",
 "C02": "Induction over the remaining characters: lexemes and the skipped blanks concatenate to the source.",
 "C03": "Case analysis of one lexer step; every token's text is the slice of the source at its position.",
 "C04": "From C03 through the grammar: leaves are tokens.",
 "C05": "The inductive grammar of Grammar.v; soundness and completeness of the parser for it.",
 "C06": "Documents and their source text in RoundSpec.v; lexing the printed text, then completeness of the grammar.",
 "C07": "Invariant of parsed trees by induction over the grammar.",
 "C08": "A known-macro check on every macro token the parser reaches; composition gives the top-level statement.",
 "C09": "Induction over the grammar: blanks in math are skipped, in text kept.",
 "C10": "The mode is a parameter of the grammar; the remaining stream after a complete formula is parsed in text mode.",
 "C11": "Lexing around a comment (LexTail.v) and composition.",
 "C12": "Parsing a concatenation (Compose.v): the grammar is compositional where no token straddles the boundary.",
 "C13": "The grammar allows a missing closer with position 0; characterised by the end of the stream.",
 "C14": "Induction over the grammar.",
 "C15": "`walk` over an arbitrary stateful visitor against a list of visits defined by recursion on the tree.",
 "C16": "As C15; parsed trees through C14.",
 "C17": "`print` is total by construction; injectivity up to positions by a prefix-code argument.",
 "C18": "Induction over the grammar with the order of token positions.",
 "C19": "Finite sweep lifted to all kinds, and the default branch for all other integers.",
 "C20": "Maps as association lists with arbitrary iteration order; set laws by induction.",
 "C21": "Case analysis of Index, finite sweep over the generated table.",
 "C22": "Decoder against the encoder; losslessness of the rune/width sequence by induction.",
 "C23": "Unfolding of `hpack`, any arithmetic.",
 "C24": "Fold invariants with the order laws of OrderLaws.v, which hold for float64 and exact numbers.",
 "C25": "Fold invariants; the sum law in exact arithmetic.",
 "C26": "Case analysis of the glue order; field arithmetic for the filling law.",
 "C27": "Induction over the list, for any backend.",
 "C28": "Recursion on the tree; exact arithmetic for the inverse, a float64 witness against it.",
 "C29": "Induction on the number of shrinks.",
 "C30": "Exact arithmetic: scaling distributes over every fold of packing.",
 "C31": "The traversal (Ship.v) is proved to refine a stateless specification (ShipSpec.v: `draws`, `place`) by mutual induction on trees.",
 "C32": "The refinement makes the output a function of the tree and the start.",
 "C33": "Exact arithmetic on ShipSpec's `draws`.",
 "C34": "Exact arithmetic: telescoping sum of advances and glue.",
 "C35": "Invariant of the traversal.",
 "C36": "`stuck` characterises panics; trees built with the constructors are never stuck (induction on construction).",
 "C37": "Exact arithmetic; the flat-box disagreement is proved too.",
 "C38": "Case analysis of ShipSpec.",
 "C39": "The visitor is a structural recursion; its outcome is compared with a predicate on trees.",
 "C40": "Case analysis of the visitor.",
 "C41": "Finite sweep over the symbol classes, lifted.",
 "C42": "Case analysis of Visit on lists in math; congruence of the result in the dropped content.",
 "C43": "The state of the visitor is compared before and after, by induction.",
 "C44": "Finite sweep over the macro table, lifted to all parsed trees through C07.",
 "C45": "The tree built by the handler is compared with FracSpec.v; centring in exact arithmetic.",
 "C46": "As C45.",
 "C47": "Unfolding of `render`, with C31 for the drawing.",
 "C48": "Induction over requests.",
 "C49": "Invariant: every cache entry is the fresh answer to some earlier request.",
 "C50": "Field arithmetic on `glyph_val`; order facts of float64 for the float statement.",
 "C51": "Invariant over all interleavings of an explicit state machine, with a race-freedom statement on accesses.",
 "C52": "C36 through the program logic: everything the visitor builds comes from the constructors.",
 "C53": "Case analysis of getGlyph.",
 "C54": "Case analysis of Kern.",
 "C55": "Case analysis of the font map.",
 "C56": "Program logic: all characters of a typeset tree were measured by the backend; drawing looks up the same cache entry.",
 "C57": "As C56, with math-mode requests only.",
 "C58": "The calls to gg are interpreted by a small drawing machine (contexts, path, face, marks).",
 "C59": "Program logic with a reading function on trees against one on syntax trees (ReadSpec.v).",
 "C60": "Exact arithmetic on the layout tree and ShipSpec, against GeomSpec.v.",
 "C61": "Generic tree shape, then arithmetic against GeomSpec.v.",
 "C62": "As C61.",
 "C63": "Exact arithmetic.",
 "C64": "Structural induction over syntax trees against SizeSpec.v, for any backend that is measured by the given measurements.",
 "C65": "Corollaries of C64.",
 "C66": "C64 and an induction showing that SizeSpec scales.",
 "C67": "The command as a list of file operations; every prefix is a crash point.",
 "C68": "The flag parser against an inductive description of command lines.",
 "C69": "Simulation (MtexSim.v) between the caching backend and a stateless one; invariant of C49.",
 "C70": "C69 and C64, then Render and the PNG renderer.",
 "C71": "The calls on fpdf, interpreted by a small machine of documents and pages.",
 "C72": "The operations added to gio's list, interpreted by a machine with saved states, offsets and clip areas; float32 is an arbitrary type.",
 "C73": "Finite sweep over pairs of kinds for the setting, arithmetic for the position (ShipSpec).",
 "C74": "Induction over the list, exact arithmetic.",
 "C75": "Unfolding and field arithmetic.",
 "C76": "PicSpec.v: figures, drawn by a small interpreter, built from the syntax tree without boxes or glue. Invariant: every box ships the ink of its figure at every scale and position (PicFacts*.v), induction over the syntax tree.",
 "C77": "Induction over the figure: a figure stays within its height and depth up to n/2 pixels, n the nesting of bars (RoomFacts.v); then C76.",
 "C78": "Composition of C76/C77 (the ink at 72 dpi), C57 (the canvas operations of a formula) and C58 (what the PNG renderer paints).",
 "C79": "The event loop as a function of the history of window events; an invariant relates its state to a declarative reading of the history (what was typed and submitted when).",
 "C80": "The same; the file operations of each event.",
 "C81": "Flocq's bound for one addition, chained by induction over the terms; the coordinates of C31 written as folds over the distances on the way.",
 "C82": "Flocq's bound for one multiplication, applied twice, with the exact values of the two constants; induction over the tree.",
 "C83": "Induction over the figure of C76: a figure stays within the width of its piece (SideFacts.v; rounding of glue moves nothing out of a centred box), then C76 and C64.",
 "C84": "Induction over the figure: stays within its width, height and depth and has no overlaps (SideFacts2.v), then C76.",
 "C85": "A reader of the generated file (lines, Go string literals) as specification; induction over sets and elements; sorting by uniqueness of sorted permutations. ConformGen.v: the model's output for the tables is symbols_gen.go, line by line.",
 "C86": "Invariant over histories: every glyph on the canvas comes from one evaluation of getInfo's formula; then integer rounding arguments (PropUnits.v).",
 "C87": "Invariant of the visitor: only letters, gaps and naturally packed rows are added (PropRows.v); a relation for nested rounded sums with the bound of C81; maxima of finite float64 numbers are exact.",
 "C88": "The grammar is an inductive relation of its own (LexSpec.v), written with maximal munch conditions; each scanner function of the model is proved equivalent to its nonterminal (PropLex.v), then induction over the token stream.",
 "C89": "A cost of trees, at least the number of nodes, the depth and the number of marks shown (C59), at most the length of the tokens by induction over the grammar (C05), at most the length of the source (C02, C88).",
 "C90": "Warn.v models the log lines of setGlue, HPack and VPack; the relation `warning` (functional) says which line is due from the totals of PackSpec.v; the log is proved to satisfy it for every arithmetic; natural packing is silent by (0+x)-x = 0 for finite floats (Flocq's Bplus/Bminus_correct).",
 "C91": "Every float64 quantity of the layout carries a weight m with |x - q| <= m*N*B*2^-53 and |q| <= m*B (Apx.v: sums, maxima, products with constants, cancellation of the stacked heights by Flocq's error bounds); the weights follow the structure of C64's proof (SizeApx.v) and are bounded by the cost of C89, so by the length of the source.",
 "C92": "FontSim.v: backends that agree on one size typeset unresized expressions alike (simulation as in C69), so the cache is transparent (C49). TtfRound.v bounds the rounding of the scaling steps (Flocq), PropSizeTtf.v shows that the fresh float64 backend measures (ApxSpec.measured64) what the exact model of the same fonts says; then C91 and C47, with ceil exact.",
 "C93": "Ci.v models the runner as a list of events (commands with their results, creation, appends, removal) against an arbitrary machine (results of commands, I/O failures); bufio.Scanner and strings.Contains as functions on strings. Induction over the packages gives one lemma (how far the loop came and why it stopped), from which the theorems follow; flag parsing is not modelled again (C68).",
 "C94": "Heap.v is the layout code again with nodes as cells of a heap as programs whose reads, writes and allocations are single steps (the visitor's lists, children, Shrink, Grow, packing and Ship go through pointers). HeapFacts.v is a small separation logic: ownership of nodes that holds whatever others do to the rest of the heap, and a triple that relates a tree program and a heap program that owns disjoint trees, with a frame rule; HeapSim*.v prove it for every function (the recursion is as deep as the tree, so bounded by the number of objects), HeapShip.v for Ship by induction over the tree; PropHeap.v composes them over histories.",
 "C95": "ConcSpec.v runs programs of Heap.v as goroutines on one heap, one access per step, in the order an arbitrary schedule says, and records the accesses. PropConc.v: the invariant is that every goroutine is safe (HeapFacts.v: from here on it touches only nodes it made itself, whatever the others do, and ends as its tree program does) and that no node was made by two; every step keeps it. Ending follows by induction over the program, which every step makes smaller. Each goroutine has its own backend (Render makes one per call); one backend shared by goroutines would race on its cache, and the symbol tables and the fonts are only read. A panic is recorded for its goroutine only (in Go, not recovered, it ends the process).",
 "C96": "LogMtex.v is Mtex.v again with the packing functions also giving the log lines of Warn.v (result and lines of every call); LogFacts.v: the results are those of Mtex.v. LogQuiet.v: an invariant over the walk, generic in the arithmetic, bounds every dimension by a multiple of the largest measurement that grows by a constant per byte, so nothing overflows; every list is packed either to its natural size (x - x = 0), or with ss glue (HCentered), or stretched with fill (the room above a bar is at least the bar). LogFloat.v proves the arithmetic laws used for float64 (Flocq) and exact numbers; LogRoot.v does \\sqrt in exact arithmetic. In float64 the radical sign's height is rounded, so \\sqrt is left out there. PropLogTtf.v: the TrueType backend: every cached glyph is the one computed for its key, its numbers come from 32-bit integers and the font size, so all are moderate; a font resized by AutoHeightChar (\\binom, \\sqrt) may have any size, so these are left out there. C90 says when one packing writes a line.",
 "C97": "PicApx.v, PicApx2.v, PicApxBar.v, PicApx3.v redo C76's proof with the weights of C91: a box looks like a figure if, whatever number of times it is shrunk and at whatever position it is drawn (both known up to a weight), the calls are those of the figure up to the tolerance; the weight of positions grows by a factor 6d+1 over that of sizes. The glue of a centred row is one ss glue on each side: its stretched width, rounded to pixels, is within half a pixel of the exact one; the fill glue under a bar likewise (if rounding makes it negative, nothing is dropped). PropPicApx.v: the origin is moved down by the height of the box; the places the marks of a figure can reach, counting the drops they are in, are bounded exactly along with C77's proof (RoomFacts.v), and float64 drops exceed exact ones by at most half a pixel and the tolerance; the TrueType backend via C92's simulation; PropPicRender.v adds C57 for mtex.Render."
}