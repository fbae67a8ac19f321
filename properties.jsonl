{"id": "C01", "title": "ParseExpr always terminates and never reports an error value", "statement": "For every input string ParseExpr terminates, and the outcome is either a node list with a nil error or one of a fixed family of panics (unhandled character, unknown macro, nil macro handler, missing '{', brace in text mode, string literal, stray closing brace / end of input in operand position). It never returns a non-nil error.", "quantifier": "all byte strings (any length, any nesting, invalid UTF-8 included)", "why_tests_cant": "Tests sample a few well-formed expressions; termination and the outcome classification range over all byte strings.", "anchors": ["parser.go:ParseExpr", "parser.go:parser.parse", "parser.go:parser.parseNode", "scanner.go:texScanner.scan"]}
{"id": "C02", "title": "Tokens tile the source", "statement": "The lexer loses, invents and reorders nothing: the input is exactly the concatenation of the raw extents of the successive tokens and of gaps made only of TAB, LF and CR (plus an optional leading byte-order mark); token positions are the byte offsets of these extents, so they strictly increase and never overlap.", "quantifier": "all byte strings on which the lexer does not panic", "why_tests_cant": "The positions of every token of every input; a test can only compare a handful of offsets.", "anchors": ["scanner.go:texScanner.Next", "scanner.go:texScanner.scan", "scanner.go:scanMacro", "scanner.go:scanComment"]}
{"id": "C03", "title": "Token text is the source text at the token position", "statement": "For each token other than comments, the token text equals the source bytes starting at its position; the only exception is a macro whose backslash is followed by TAB/LF/CR, whose text is a backslash followed by the next token's text.", "quantifier": "all byte strings, all tokens", "why_tests_cant": "Quantifies over every token of every input.", "anchors": ["scanner.go:texScanner.scan", "scanner.go:scanMacro", "token/token.go:Token"]}
{"id": "C04", "title": "Every leaf of a parsed tree carries its source text at its position", "statement": "If ParseExpr(x) succeeds then for each Word, Literal, Symbol and macro name in the result, x[Pos():End()] is exactly the node's text, except for macro names whose backslash is followed by TAB/LF/CR.", "quantifier": "all inputs on which ParseExpr succeeds, all nodes of the result", "why_tests_cant": "Positions are checked by tests on seven fixed inputs only.", "anchors": ["ast/ast.go:Word.End", "ast/ast.go:Symbol.End", "ast/ast.go:Literal.End", "ast/ast.go:Ident.End", "parser.go:parseWord", "parser.go:parseSymbol", "parser.go:parseNumber"]}
{"id": "C05", "title": "Parsed trees follow the grammar and account for every token", "statement": "ParseExpr(x) returns the nodes ns exactly when the token stream of x derives ns in the grammar of documents (braces, brackets, $, ^, _, macro arguments; closing delimiters may be missing only at the end of the input). Reading the tree back in order gives exactly the token stream of x minus comments, spaces and braces that open or close groups, each token once.", "quantifier": "all inputs on which ParseExpr succeeds", "why_tests_cant": "A dropped or duplicated token on some rare shape of input escapes any finite test list.", "anchors": ["parser.go:parseNode", "parser.go:parseMathExpr", "parser.go:parseMacroArg", "parser.go:parseOptMacroArg", "parser.go:parseSup", "parser.go:parseSub", "parser.go:parseMathLbrace"]}
{"id": "C06", "title": "Parsing inverts printing to LaTeX source (round trip)", "statement": "For every well-formed document tree (words, numbers, symbols, spaces, macros with required/optional arguments, math, sub/superscripts, groups, nested to any depth) ParseExpr applied to its LaTeX source returns that tree, with every position equal to the byte offset of the construct in the source.", "quantifier": "all well-formed document trees", "why_tests_cant": "Round trips must hold for every tree, at every depth.", "anchors": ["parser.go:ParseExpr", "macros.go:builtinMacro.parseMacro", "scanner.go:texScanner.scan"]}
{"id": "C07", "title": "Macro nodes match the macro table", "statement": "In any successful parse each Macro node's name is a known macro and its arguments are exactly those of its signature, in order: one Arg per required argument and at most one OptArg per optional one. In particular unknown macros are never accepted.", "quantifier": "all inputs on which ParseExpr succeeds, all Macro nodes of the result", "why_tests_cant": "The table has several hundred entries and macros nest arbitrarily.", "anchors": ["macros.go:addBuiltinMacros", "macros.go:builtinMacro.parseMacro", "parser.go:parseMacro"]}
{"id": "C08", "title": "Unknown macros are rejected wherever they occur at top level", "statement": "If the token stream of x contains a macro outside the known table, ParseExpr(x) never succeeds. If that macro follows complete constructs at top level, ParseExpr panics with 'unknown macro' naming it; the macro \\genfrac, which is in the table with a nil handler, panics there with a nil dereference instead.", "quantifier": "all inputs whose first offending token is such a macro", "why_tests_cant": "Ranges over every macro name outside the table and every prefix.", "anchors": ["parser.go:parseMacro", "macros.go:addBuiltinMacros"]}
{"id": "C09", "title": "Spaces are significant in text and ignored in math", "statement": "In a successful parse no node below a MathExpr is a Symbol with text ' ' or '\\ '; and when the input has no $ every space (or '\\ ') token is kept as a node, in order with all other tokens. Spaces in math are not always irrelevant: in $x^ 2$ the space becomes the (nil) superscript.", "quantifier": "all inputs on which ParseExpr succeeds", "why_tests_cant": "Mode is inherited through arbitrary nesting of arguments, groups and scripts.", "anchors": ["parser.go:parseNode", "parser.go:parseMathExpr"]}
{"id": "C10", "title": "Math mode is left exactly where it was entered", "statement": "After any node has been parsed the parser is back in the mode it had before the node, whatever the nesting; hence text after a closing $ is parsed as text.", "quantifier": "all inputs, all nodes", "why_tests_cant": "Requires an invariant over the whole recursive descent.", "anchors": ["parser.go:parseMathExpr"]}
{"id": "C11", "title": "Comments do not change the tree", "statement": "Inserting a comment that contains no double quote, with its newline, between two top-level constructs only shifts later positions. With a double quote in the comment this is false: the comment swallows the next line.", "quantifier": "all inputs, insertion points at top-level token boundaries, and comment bodies", "why_tests_cant": "Ranges over all comment bodies and contexts.", "anchors": ["scanner.go:scanComment"]}
{"id": "C12", "title": "Parsing is compositional", "statement": "For inputs a and b, if a is a sequence of complete constructs (all groups and operands closed) and b's first character cannot continue a's last token, then ParseExpr(a+b) is ParseExpr(a) followed by ParseExpr(b) with positions shifted by len(a), and panics exactly as ParseExpr(b) does. Text without $ ^ _ braces and macros is always complete.", "quantifier": "all pairs of inputs meeting the boundary condition", "why_tests_cant": "Relates runs on three different inputs.", "anchors": ["parser.go:parser.parse"]}
{"id": "C13", "title": "Unclosed groups are accepted silently", "statement": "The parser reports no problem when the input ends inside a group: the open group's closing position is left 0, and such groups occur only on the last branch of the tree. A nonzero closing position recorded in a MathExpr, Arg or OptArg is the offset of a '$', '}' or ']' in the source, and the opening position is the offset of a matching opener.", "quantifier": "all inputs on which ParseExpr succeeds", "why_tests_cant": "All nestings and truncation points.", "anchors": ["parser.go:parseMacroArg", "parser.go:parseOptMacroArg", "parser.go:parseMathExpr"]}
{"id": "C14", "title": "No nil nodes except as script operands", "statement": "In a successful parse no node list contains a nil node; a nil node occurs only as the operand of Sub or Sup, and only when the operand token is a comment, or a space in math mode.", "quantifier": "all inputs on which ParseExpr succeeds", "why_tests_cant": "Invariant of all reachable trees.", "anchors": ["parser.go:parseSup", "parser.go:parseSub", "parser.go:parse"]}
{"id": "C15", "title": "Walk visits depth-first, in order, with matching nil calls", "statement": "For a visitor that always returns itself, Walk on a tree without nil nodes calls Visit once per node in depth-first source order and Visit(nil) once after each node's children; a visitor that returns nil for a node prunes exactly that subtree and gets no Visit(nil) for it.", "quantifier": "all trees, all (stateful) visitors", "why_tests_cant": "Visitors are arbitrary programs and trees are unbounded.", "anchors": ["ast/walk.go:Walk", "ast/walk.go:walkNodes", "ast/walk.go:Inspect"]}
{"id": "C16", "title": "Walk panics on nil children", "statement": "The documentation says Walk visits the non-nil children only; in fact a nil child is visited and Walk panics as soon as the visitor accepts it. Parsed trees can contain such a child.", "quantifier": "all trees containing a nil node that the visitor reaches", "why_tests_cant": "Shows that a documented guarantee fails on reachable trees.", "anchors": ["ast/walk.go:Walk"]}
{"id": "C17", "title": "Print never panics and identifies the tree up to positions and delimiters", "statement": "Print writes a finite text for every tree, and two trees with the same output are equal up to positions and math delimiters (assuming the quoting of texts is injective and self-delimiting), so that comparing printed trees is a sound comparison.", "quantifier": "all pairs of trees", "why_tests_cant": "Injectivity ranges over pairs of unbounded trees.", "anchors": ["ast/ast.go:Print"]}
{"id": "C18", "title": "Node extents are ordered", "statement": "In a successful parse Pos() of a node is not after any token of its subtree and siblings' positions strictly increase; End() is greater than Pos() for leaves and closed groups (nodes whose Pos or End is the sentinel -1/0 excepted). End() of an Arg, OptArg or MathExpr is the position of its closing delimiter, not the position after it as the interface documents.", "quantifier": "all nodes of all successful parses", "why_tests_cant": "Universally quantified over trees and nodes.", "anchors": ["ast/ast.go:List.Pos", "ast/ast.go:Macro.End", "ast/ast.go:Arg.End", "ast/ast.go:MathExpr.End"]}
{"id": "C19", "title": "Kind names are total and distinct", "statement": "Kind.String never panics for any int; it gives the seventeen declared names for the declared kinds, which are pairwise distinct, and 'Kind(n)' otherwise.", "quantifier": "all int values", "why_tests_cant": "Slice-index arithmetic over a packed name table for every int.", "anchors": ["token/kind_string.go:Kind.String"]}
{"id": "C20", "title": "Symbol sets behave as finite sets", "statement": "NewSet(vs...).Has(k) iff k is among vs; UnionOf(sets...).Has(k) iff some set has k; Keys returns exactly the members, strictly sorted, without duplicates.", "quantifier": "all lists of strings and lists of sets", "why_tests_cant": "Algebraic laws over all sets.", "anchors": ["mtex/symbols/set.go:NewSet", "mtex/symbols/set.go:UnionOf", "mtex/symbols/set.go:Keys", "mtex/symbols/symbols.go:IsSpaced"]}
{"id": "C21", "title": "Index maps symbols to runes exactly as documented", "statement": "In text mode Index returns the first UTF-8 rune of the symbol and panics iff that is RuneError; in math mode it returns U+2212 for '-', the character itself for other one-byte ASCII symbols, the table entry of the name with its first backslash removed otherwise, and panics iff there is none.", "quantifier": "all strings, both modes", "why_tests_cant": "All strings, including invalid UTF-8 and multiple backslashes.", "anchors": ["internal/tex2unicode/utf8.go:Index", "internal/tex2unicode/utf8.go:HasSymbol", "internal/tex2unicode/utf8.go:Symbols"]}
{"id": "C22", "title": "UTF-8 decoding of source text", "statement": "Every Unicode scalar value written in UTF-8 is read back as one character of the right width and value, and every byte string is split into characters whose raw bytes concatenate to it.", "quantifier": "all scalar values, all byte strings", "why_tests_cant": "Bit-level encode/decode identity over 1.1 million values and all strings.", "anchors": ["scanner.go:newScanner", "internal/tex2unicode/utf8.go:Index"]}
{"id": "C23", "title": "HPack sets the requested width exactly", "statement": "After HPack(w, false) the width is exactly w, and after HPack(w, true) it is w plus the sum of the children's widths taken left to right; the children are unchanged.", "quantifier": "all horizontal lists, all widths, every float64 value", "why_tests_cant": "All lists and all floats, bit for bit.", "anchors": ["tex/box.go:HList.HPack"]}
{"id": "C24", "title": "A packed horizontal list encloses its children", "statement": "After HPack the height (depth) is the maximum of 0 and the shift-adjusted heights (depths) of the children, skipping children with a running (infinite) height or depth, and is therefore at least each of them.", "quantifier": "all horizontal lists whose dimensions are not NaN", "why_tests_cant": "Fold over arbitrary lists.", "anchors": ["tex/box.go:HList.HPack", "tex/box.go:Box.hpackDims", "tex/box.go:List.hpackDims", "tex/box.go:Char.hpackDims"]}
{"id": "C25", "title": "VPack height, depth and width laws", "statement": "After VPack the width is the maximum of the non-running child widths; natural height plus depth is the sum of the children's heights, depths and kerns; the depth is the last box's depth limited to the given maximum, the excess going into the height; VPack(h,false,l) gives height exactly h.", "quantifier": "all vertical lists, heights and depth limits", "why_tests_cant": "Fold over arbitrary lists.", "anchors": ["tex/box.go:VList.VPack", "tex/box.go:Box.vpackDims", "tex/box.go:Kern.vpackDims", "tex/box.go:Glue.vpackDims"]}
{"id": "C26", "title": "Glue setting distributes exactly the missing or excess space", "statement": "HPack/VPack choose the highest glue order with a nonzero total and the right sign, and in exact arithmetic the natural size plus glue-set times that total equals the requested size; when no glue of the needed kind exists the sign is 0.", "quantifier": "all lists and requested sizes", "why_tests_cant": "Arithmetic identity over all lists.", "anchors": ["tex/box.go:determineOrder", "tex/box.go:List.setGlue", "tex/box.go:HList.HPack", "tex/box.go:VList.VPack"]}
{"id": "C27", "title": "Kerning insertion preserves the content", "statement": "HListOf with kerning keeps every element in order and inserts exactly one Kern, of the element's kerning with its successor, after each element whose kerning is nonzero, and nothing else.", "quantifier": "all element lists and all font backends", "why_tests_cant": "All lists, all backends.", "anchors": ["tex/box.go:HList.kern", "tex/box.go:Char.Kerning", "tex/box.go:HListOf"]}
{"id": "C28", "title": "Shrink and Grow scale the whole tree", "statement": "Shrink multiplies every dimension, shift and font size in the tree by 0.7 and Grow by 10/7, at every depth, and changes nothing else; in exact arithmetic they are inverse to each other, in float64 they are not.", "quantifier": "all box trees without accents, all numbers of applications", "why_tests_cant": "All trees, any depth; iterated.", "anchors": ["tex/box.go:Box.Shrink", "tex/box.go:Box.Grow", "tex/box.go:Char.Shrink", "tex/box.go:List.Shrink", "tex/box.go:Glue.Shrink", "tex/box.go:Kern.Shrink"]}
{"id": "C29", "title": "Shrinking has no floor", "statement": "The documentation says there are only a few size levels after which things no longer get smaller; in fact every Shrink of a freshly built node scales it again, without limit.", "quantifier": "all nodes, any number of Shrink calls", "why_tests_cant": "Unbounded iteration.", "anchors": ["tex/box.go:Box.Shrink", "tex/box.go:numSizeLevels"]}
{"id": "C30", "title": "Packing commutes with scaling", "statement": "In exact arithmetic shrinking a naturally packed list gives the same dimensions as packing the shrunk children.", "quantifier": "all lists of finite non-accent nodes", "why_tests_cant": "All lists.", "anchors": ["tex/box.go:List.Shrink", "tex/box.go:HList.HPack", "tex/box.go:VList.VPack"]}
{"id": "C31", "title": "Shipping renders each glyph and rule once, in order, at its layout position", "statement": "Ship.Call emits one glyph call per Char/Accent and one rectangle per visible Rule, in depth-first order, each at the position obtained by adding up the widths (resp. heights) of what precedes it, with list shifts and the origin applied.", "quantifier": "all box trees and origins", "why_tests_cant": "All trees.", "anchors": ["tex/box.go:Ship.Call", "tex/box.go:Ship.hlistOut", "tex/box.go:Ship.vlistOut"]}
{"id": "C32", "title": "Shipping the same tree twice gives the same output", "statement": "Although vlistOut overwrites the widths of nested lists, calling Ship.Call again on the same tree emits exactly the same calls.", "quantifier": "all box trees (without sharing) and origins", "why_tests_cant": "Relates two runs with intervening mutation, for all trees.", "anchors": ["tex/box.go:Ship.vlistOut"]}
{"id": "C33", "title": "Shipping is translation invariant", "statement": "In exact arithmetic moving the origin by (dx,dy) moves every emitted glyph and rectangle by (dx,dy) and changes nothing else.", "quantifier": "all box trees and offsets", "why_tests_cant": "All trees.", "anchors": ["tex/box.go:Ship.Call"]}
{"id": "C34", "title": "Shipped content fills the packed width", "statement": "In exact arithmetic the horizontal advance of a shipped horizontal list is the sum of its children's widths plus the rounded glue, so that for a list packed to width w with usable glue it differs from w by at most 1/2.", "quantifier": "all horizontal lists with glue total within the clamp range", "why_tests_cant": "Rounded running sums over arbitrary lists.", "anchors": ["tex/box.go:Ship.hlistOut", "tex/box.go:HList.HPack", "tex/utils.go:clamp"]}
{"id": "C35", "title": "Push depth is balanced", "statement": "After Ship.Call the nesting counter is 0 again, and the recorded maximum is the list nesting depth of the tree.", "quantifier": "all box trees", "why_tests_cant": "All trees.", "anchors": ["tex/box.go:Ship.hlistOut", "tex/box.go:Ship.vlistOut"]}
{"id": "C36", "title": "When shipping panics", "statement": "Ship.Call panics exactly when a Char or Accent is reached in a vertical list, or when a visible node without a render method (Box, List, SubSuperCluster) is reached in a horizontal list; trees built from the exported constructors without characters in vertical lists and without SubSuperCluster never panic.", "quantifier": "all box trees", "why_tests_cant": "All trees.", "anchors": ["tex/box.go:Ship.hlistOut", "tex/box.go:Ship.vlistOut", "tex/box.go:VBox", "tex/box.go:HBox"]}
{"id": "C37", "title": "Vertical advance agrees with packing except for flat boxes", "statement": "In exact arithmetic, shipping a naturally packed vertical list advances by its height plus depth provided every box or rule in it has positive depth or no extent; a box with height but no depth is counted by VPack and skipped by Ship.", "quantifier": "all vertical lists", "why_tests_cant": "All lists.", "anchors": ["tex/box.go:Ship.vlistOut", "tex/box.go:VList.VPack"]}
{"id": "C38", "title": "Running rules fill the enclosing box", "statement": "A rule with infinite height/depth in a horizontal list is drawn with the enclosing list's height/depth, and one with infinite width in a vertical list with the enclosing list's width.", "quantifier": "all lists and rules", "why_tests_cant": "All lists.", "anchors": ["tex/box.go:HRule", "tex/box.go:VRule", "tex/box.go:Ship.hlistOut", "tex/box.go:Ship.vlistOut"]}
{"id": "C39", "title": "mtex.Parse terminates and its outcome is determined by the tree", "statement": "For every expression and every backend that answers all queries, mtex.Parse terminates: it returns a horizontal list and a nil error exactly when the expression parses and no refused construct is reached by the traversal; otherwise it panics. It never returns a non-nil error.", "quantifier": "all expressions, sizes, resolutions and backends", "why_tests_cant": "All inputs.", "anchors": ["mtex/parser.go:Parse", "mtex/parser.go:visitor.Visit", "mtex/parser.go:parser.handleNode"]}
{"id": "C40", "title": "Sub- and superscripts are never rendered", "statement": "mtex.Parse panics on every expression whose syntax tree has a subscript or superscript that the visitor reaches.", "quantifier": "all expressions with a reachable Sub or Sup", "why_tests_cant": "All expressions.", "anchors": ["mtex/parser.go:visitor.Visit"]}
{"id": "C41", "title": "Which math symbols mtex accepts", "statement": "In math mode a Symbol is typeset iff it is one of + - * = < > : . ( ) ; every other symbol the parser can produce there (such as , ; ! / ? ' [ ]) panics.", "quantifier": "all symbols the lexer can produce, all contexts", "why_tests_cant": "Cross product of several tables and handlers.", "anchors": ["mtex/parser.go:parser.handler", "mtex/parser.go:handleSymbol", "mtex/symbols/symbols_gen.go:PunctuationSymbols"]}
{"id": "C42", "title": "Groups directly inside math are dropped", "statement": "The content of a brace group that is a direct child of a math expression never reaches the box list: $a{b}c$ is typeset as $ac$.", "quantifier": "all expressions and all group contents", "why_tests_cant": "All group contents.", "anchors": ["mtex/parser.go:visitor.Visit"]}
{"id": "C43", "title": "The font type and math flag are restored after math", "statement": "After a math expression, the visitor's font and math flag are exactly what they were before, so text after it is set as the text before it.", "quantifier": "all expressions", "why_tests_cant": "All nestings.", "anchors": ["mtex/parser.go:visitor.Visit"]}
{"id": "C44", "title": "Every macro that parses has a typesetting handler", "statement": "Each macro name the latex parser accepts has a handler in mtex, so 'unknown macro' cannot occur in mtex for parsed input.", "quantifier": "all macro names accepted by the parser", "why_tests_cant": "Agreement of two large independent tables.", "anchors": ["mtex/parser.go:parser.handler", "mtex/parser.go:parser.init", "macros.go:addBuiltinMacros"]}
{"id": "C45", "title": "Fraction layout", "statement": "\\frac and \\tfrac stack the once-shrunk numerator, a bar and the once-shrunk denominator (\\dfrac does not shrink), both centered in the width of the wider one, the bar having that width and the backend's underline thickness; \\binom has the same layout with an invisible bar between parentheses.", "quantifier": "all numerators, denominators, states and backends", "why_tests_cant": "All contents.", "anchors": ["mtex/parser.go:genfrac", "mtex/parser.go:handleFrac", "mtex/parser.go:handleDFrac", "mtex/parser.go:handleBinom"]}
{"id": "C46", "title": "Operator spacing", "statement": "A spaced symbol is typeset with a kern of 0.2 em on both sides, except a binary operator whose last preceding non-space byte is '{', '(', '[' or '<'. The intended exemption at the start of the expression never applies.", "quantifier": "all expressions, positions and symbols", "why_tests_cant": "All contexts.", "anchors": ["mtex/parser.go:handleSymbol"]}
{"id": "C47", "title": "Render passes the right dimensions and drawing to the renderer", "statement": "Render calls the renderer once, with width/72, ceil(height+max(depth,0))/72, the given dpi and a canvas holding exactly the calls of one Ship at origin (0,0) in order; the drawing does not depend on dpi.", "quantifier": "all expressions, sizes, resolutions, fonts", "why_tests_cant": "All inputs.", "anchors": ["mtex/render.go:Render", "drawtex/canvas.go:Canvas"]}
{"id": "C48", "title": "The canvas is an append-only log", "statement": "After any sequence of RenderGlyph and RenderRectFilled calls Ops() lists exactly those calls in order.", "quantifier": "all call sequences", "why_tests_cant": "All histories.", "anchors": ["drawtex/canvas.go:Canvas.RenderGlyph", "drawtex/canvas.go:Canvas.RenderRectFilled", "drawtex/canvas.go:Canvas.Ops"]}
{"id": "C49", "title": "Font metrics do not depend on the call history", "statement": "Metrics, Kern and RenderGlyph of the TrueType backend return what a fresh backend would, whatever was asked before. This is false across the math flag, which is not part of the cache key; it holds for any history that uses each (symbol, font, dpi) with one value of the flag.", "quantifier": "all call histories", "why_tests_cant": "Cache coherence over all histories.", "anchors": ["font/ttf/ttf.go:Backend.getInfo", "font/ttf/ttf.go:ttfKey"]}
{"id": "C50", "title": "TrueType metrics are consistent", "statement": "The metrics returned for a glyph satisfy Width=XMax-XMin, Iceberg=YMax, and in exact arithmetic Height=YMax-YMin, and all scale linearly with the font size; hence a Char's height plus depth is its glyph height.", "quantifier": "all glyphs, fonts and sizes", "why_tests_cant": "All glyph bounds.", "anchors": ["font/ttf/ttf.go:Backend.getInfo", "tex/box.go:Char.updateMetrics"]}
{"id": "C51", "title": "Fonts are parsed once and shared by all goroutines", "statement": "Under any interleaving of any number of concurrent calls, the font files are parsed at most once, and every call that returns gets the same fully initialised value, which never changes; no call can deadlock and the shared variable is never raced on. If a file is bad, exactly one call panics and all others return nil.", "quantifier": "all schedules of any number of goroutines", "why_tests_cant": "Schedules cannot be enumerated by tests.", "anchors": ["font/lm/lm.go:Fonts", "font/liberation/liberation.go:Fonts"]}
{"id": "C52", "title": "Typeset expressions can be shipped", "statement": "Every box list returned by mtex.Parse is built only with the exported tex constructors, has no character directly inside a vertical list and no SubSuperCluster, and shipping it at any origin never panics.", "quantifier": "all expressions, sizes, resolutions, backends and origins", "why_tests_cant": "Composition of two packages over all inputs.", "anchors": ["mtex/parser.go:Parse", "mtex/parser.go:parser.handleNode", "tex/box.go:Ship.Call"]}
{"id": "C53", "title": "Only letters are italic", "statement": "In the italic font the TrueType backend measures and draws every symbol below U+10000 that is not a Unicode letter exactly as in the roman font; letters are drawn from the italic face with slanted metrics.", "quantifier": "all symbols, sizes, resolutions and font sets", "why_tests_cant": "All runes and fonts.", "anchors": ["font/ttf/ttf.go:Backend.getGlyph", "font/ttf/ttf.go:Backend.RenderGlyph"]}
{"id": "C54", "title": "Kerning is zero across fonts and is not scaled", "statement": "Backend.Kern returns 0 when the two fonts differ in name or size; otherwise its value does not depend on the size or the resolution asked for.", "quantifier": "all fonts, symbols, sizes and histories", "why_tests_cant": "All argument combinations.", "anchors": ["font/ttf/ttf.go:Backend.Kern"]}
{"id": "C55", "title": "Faces of the TrueType backend", "statement": "A new backend draws a glyph of type default, rm, it or bf with the face of that name, of type regular with the rm face (of type it with the rm face if it is not a letter, C53), in the size asked for and with the metrics Metrics reports. No answer of the backend depends on the bold-italic face, and asking for a font type other than default, regular, rm, it, bf panics, after any history.", "quantifier": "all call histories, fonts and requests", "why_tests_cant": "All histories.", "anchors": ["font/ttf/ttf.go:Backend.getFont"]}
{"id": "C56", "title": "Characters are drawn with the metrics they were laid out with", "statement": "When Render draws an expression, each character of the layout is drawn once, in order, and every character that was not shrunk is drawn with exactly the metrics the layout used for it.", "quantifier": "all expressions, sizes, resolutions, fonts and renderers", "why_tests_cant": "All inputs and cache contents.", "anchors": ["mtex/render.go:Render", "font/ttf/ttf.go:Backend.getInfo", "tex/box.go:Char.Render"]}
{"id": "C57", "title": "Formulas that can be laid out can be drawn", "statement": "If an expression has no text outside of dollars and its layout does not panic, Render does not panic by itself, and every glyph and rule is what a fresh backend would draw for that call. With text outside of dollars both fail, because text is measured in text mode and drawn in math mode.", "quantifier": "all formulas, sizes, resolutions, fonts and renderers", "why_tests_cant": "All inputs.", "anchors": ["mtex/render.go:Render", "font/ttf/ttf.go:Backend.RenderGlyph", "mtex/parser.go:parser.handleNode"]}
{"id": "C58", "title": "The PNG renderer draws the canvas at the right size", "statement": "drawimg writes one image whose size is the size in inches times the resolution, rounded up, showing every operation of the canvas once, in order, in black, with coordinates multiplied by dpi/72; in exact arithmetic the picture at q times the resolution is q times as large. It panics exactly when a font face cannot be opened.", "quantifier": "all canvases, sizes and resolutions", "why_tests_cant": "All drawings.", "anchors": ["drawtex/drawimg/drawimg.go:Renderer.Render", "drawtex/drawimg/drawimg.go:drawGlyph", "drawtex/drawimg/drawimg.go:drawRect"]}
{"id": "C59", "title": "What is drawn is what was written, in reading order", "statement": "Drawing a typeset expression makes exactly one drawing call per visible mark of the expression, in reading order: each letter of text in the roman face, each math symbol in the italic face, function names letter by letter in roman, numerators before denominators, a shrunk size inside \\frac, \\tfrac, \\binom and twice shrunk in a root index, one bar per fraction, radical and overline, and no bar for \\binom; spacing commands and brace groups directly inside dollars show nothing. Glyphs: for all arithmetic; bars: in exact arithmetic with fonts whose rules have a positive thickness.", "quantifier": "all expressions, fonts, sizes, resolutions and drawing origins", "why_tests_cant": "All expressions and font metrics.", "anchors": ["mtex/parser.go:visitor.Visit", "mtex/parser.go:parser.genfrac", "mtex/parser.go:parser.handleSqrt", "tex/box.go:Ship.Call"]}
{"id": "C60", "title": "Fractions are drawn where they should be", "statement": "In exact arithmetic, for \\frac, \\tfrac and \\dfrac with rule thickness r and spacing unit h: drawing the fraction at (x, v) draws the numerator with its bottom h + r above the math axis, one bar of thickness r and the width of the wider part whose upper edge is h below the axis (not centred on it), and the denominator with its top 3h below the axis, both parts centred up to half a pixel, and nothing else; the size of the box is that of the stack plus 2h of width. \\binom is the same without a bar, between parentheses.", "quantifier": "all numerators, denominators, fonts, sizes, resolutions, positions and drawing origins", "why_tests_cant": "All argument boxes and metrics.", "anchors": ["mtex/parser.go:parser.genfrac", "mtex/parser.go:handleFrac", "mtex/parser.go:parser.handleDFrac", "mtex/parser.go:parser.handleTFrac", "mtex/parser.go:parser.handleBinom", "tex/box.go:HRule", "tex/box.go:VListOf", "tex/box.go:VList.VPack"]}
{"id": "C61", "title": "Overlines are drawn above their body", "statement": "An \\overline puts its body under a bar of the rule thickness t; in exact arithmetic the bar is as wide as the body, its upper edge is 2t + e above the body, where e is size*dpi/1200, the body keeps its place up to half a pixel, and the box is 3t + e higher than the body.", "quantifier": "all bodies, fonts, sizes, resolutions, positions and drawing origins", "why_tests_cant": "All argument boxes and metrics.", "anchors": ["mtex/parser.go:parser.handleOverline", "tex/box.go:VList.VPack", "tex/box.go:HRule"]}
{"id": "C62", "title": "Radicals are drawn around their body", "statement": "\\sqrt lays out index, body and a check as high as the body plus five rule thicknesses; in exact arithmetic, when the check has that size, the index is drawn 3/5 of the height of the check above the baseline and overlaps it by half its width, the bar starts at the right edge of the check, covers body and 2t of padding on both sides, and the body is drawn on the baseline up to half a pixel.", "quantifier": "all indices, bodies, fonts, sizes, resolutions, positions and drawing origins", "why_tests_cant": "All argument boxes and metrics.", "anchors": ["mtex/parser.go:parser.handleSqrt", "tex/box.go:AutoHeightChar", "tex/box.go:VList.VPack"]}
{"id": "C63", "title": "Delimiters reach as high and as deep as asked", "statement": "In exact arithmetic, if the metrics of a glyph are proportional to the font size and the glyph ends neither below nor above the baseline only (its extents above and below are not negative and not both zero), AutoHeightChar, with a named font, returns a box with that one glyph, from the same face, that reaches exactly the requested height above and depth below the baseline.", "quantifier": "all glyphs, heights, depths, fonts and backends", "why_tests_cant": "All sizes.", "anchors": ["tex/box.go:AutoHeightChar", "tex/box.go:NewChar"]}
{"id": "C64", "title": "The size of a typeset expression follows from its glyphs", "statement": "In exact arithmetic, the width, height and depth of the box returned by mtex.Parse are given by a recursive function of the syntax tree and of the measurements of single glyphs: words and rows add advances and kerning pairs; operators, relations and arrows take 1/5 em on both sides except a binary operator after an opening delimiter; a point is followed by 1/5 em unless it stands between digits; spacing commands take their fixed fractions of an em; fractions, binomials, radicals and overlines have the sizes of their layouts.", "quantifier": "all expressions, sizes, resolutions and fonts whose delimiters are not flat and whose lines are not negative", "why_tests_cant": "All expressions and metrics.", "anchors": ["mtex/parser.go:Parse", "mtex/parser.go:parser.handleSymbol", "mtex/parser.go:parser.handleSpace", "mtex/parser.go:parser.makeSpace", "mtex/parser.go:visitor.Visit", "tex/box.go:HListOf", "tex/box.go:HList.kern"]}
{"id": "C65", "title": "Sizes of parts add up; spaces add exactly their width", "statement": "In exact arithmetic, an expression made of two parts is as wide as both together plus the kerning of the glyphs that meet, as high as the higher and as deep as the deeper part; a spacing command between two parts adds exactly its fraction of an em to the width and prevents kerning across it, in text and in formulas.", "quantifier": "all expressions, splits, spacing commands, sizes, resolutions and fonts", "why_tests_cant": "All expressions.", "anchors": ["mtex/parser.go:Parse", "mtex/parser.go:parser.handleSpace", "tex/box.go:HListOf", "tex/box.go:HList.HPack"]}
{"id": "C66", "title": "Typesetting is proportional to size and resolution", "statement": "In exact arithmetic, if all measurements of the fonts grow in proportion to the font size and the resolution, then an expression set c times as large at r times the resolution is c*r times as wide, high and deep.", "quantifier": "all expressions, sizes, resolutions, factors and such fonts", "why_tests_cant": "All expressions and factors.", "anchors": ["mtex/parser.go:Parse", "mtex/parser.go:parser.handleSqrt", "mtex/parser.go:parser.handleOverline", "tex/box.go:AutoHeightChar"]}
{"id": "C67", "title": "mtex-render changes only its output file, at every crash point", "statement": "When mtex-render is stopped after any of its file operations, or ends in any way, no file but the one named by -o has changed, and that one is untouched, empty, or holds a beginning of the PNG of the expression set with the Liberation fonts at the given size and resolution. Exit status 0 (without -h) means the whole PNG was written and closed without error; if nothing fails it is reached. An expression that cannot be drawn panics and leaves the output file empty, whatever it held. Without exactly one expression, with bad flags, or if the file cannot be created, nothing is touched.", "quantifier": "all command lines, fonts, file systems, write errors and crash points", "why_tests_cant": "All crash points and failures of every write.", "anchors": ["cmd/mtex-render/main.go:main", "mtex/render.go:Render", "drawtex/drawimg/drawimg.go:Renderer.Render"]}
{"id": "C68", "title": "The flags of mtex-render", "statement": "A command line is accepted exactly if it is a sequence of well-formed settings (-name=value, -name value, -gui, with one or two dashes) followed by the other arguments, which must come after \"--\" if the first looks like a flag; each option then has the last value given to it, or its default (72 dpi, 12 points, out.png, no GUI).", "quantifier": "all command lines", "why_tests_cant": "All command lines.", "anchors": ["cmd/mtex-render/main.go:main"]}
{"id": "C69", "title": "The glyph cache cannot be noticed when formulas are laid out", "statement": "With a TrueType backend, the result or panic of mtex.Parse on an expression made of formulas is that of a fresh backend, whatever formulas were laid out with the same backend before and whatever calls in math mode, or drawing calls, it served.", "quantifier": "all fonts, formulas, sizes, resolutions and histories of formulas and math-mode calls, in exact arithmetic", "why_tests_cant": "All histories.", "anchors": ["font/ttf/ttf.go:Backend.getInfo", "mtex/parser.go:Parse"]}
{"id": "C70", "title": "The size of the picture of a formula follows from the fonts", "statement": "In exact arithmetic, the box of a formula typeset with TrueType fonts has the width, height and depth that follow from the formula and the measurements of single glyphs of the fonts; mtex.Render asks for a picture of that width, and of the height plus the depth (if positive) rounded up to whole points; the PNG has that size times the resolution over 72, rounded up to whole pixels. With fonts without kerning, a formula set c times as large has a box c times as large.", "quantifier": "all fonts whose delimiters have an extent, formulas, sizes and resolutions", "why_tests_cant": "All formulas and fonts.", "anchors": ["mtex/parser.go:Parse", "mtex/render.go:Render", "font/ttf/ttf.go:Backend.Metrics", "drawtex/drawimg/drawimg.go:Renderer.Render"]}
{"id": "C71", "title": "The PDF writer draws nothing", "statement": "drawpdf.Write produces one document with one page of the given size in points and nothing on it; the calls on the PDF library do not depend on the canvas.", "quantifier": "all canvases, sizes and file names", "why_tests_cant": "All canvases.", "anchors": ["drawtex/drawpdf/drawpdf.go:Write"]}
{"id": "C72", "title": "The GUI renderer shows every operation once and restores the gio state", "statement": "The renderer of the GUI adds to the list of gio operations, for each operation of the canvas in order, one label (upper left corner one font size above the baseline, italic if the glyph is slanted) or one filled rectangle (its corners moved by the renderer's offset), at dpi/72 times its coordinates, all relative to the same origin and clip area, which are in force again at the end.", "quantifier": "all canvases, resolutions, offsets, previous operation lists, and any rounding to float32", "why_tests_cant": "All canvases and states.", "anchors": ["cmd/mtex-render/gio.go:gioRenderer.Render", "cmd/mtex-render/gio.go:gioRenderer.drawGlyph", "cmd/mtex-render/gio.go:gioRenderer.drawRect"]}
{"id": "C73", "title": "Glue by name", "statement": "NewGlue accepts exactly eight names and panics on any other; glue has no natural width. When a list with two glues is stretched or compressed, the stronger glue takes all the space (filll over fill over fil and ss; for compression the neg_ kinds and ss), equally strong ones share it, up to rounding to integers. HCentered and VCentered use the kind ss on both sides, so a centred character sticks in or out equally on both sides.", "quantifier": "all names, pairs of kinds, characters and amounts of space up to 10^9, in exact arithmetic", "why_tests_cant": "All amounts and pairs.", "anchors": ["tex/box.go:NewGlue", "tex/box.go:HList.HPack", "tex/box.go:Ship.hlistOut"]}
{"id": "C74", "title": "Characters take their advance", "statement": "A character made by NewChar is as wide as its ink (a blank: as its advance), as high as its ink reaches above the baseline, and height plus depth is the height of the ink. A list made by HListOf with kerning is as wide as the advances of its characters plus the widths of its other elements plus the kerning of neighbouring characters; without kerning it is as wide as its elements.", "quantifier": "all symbols, backends and lists with finite widths, in exact arithmetic", "why_tests_cant": "All lists.", "anchors": ["tex/box.go:NewChar", "tex/box.go:HListOf", "tex/box.go:Char.Kerning"]}
{"id": "C75", "title": "Lines and x-heights of the TrueType backend", "statement": "UnderlineThickness is 1/16 of the font size times dpi/72 for every face; XHeight is the negated x-height of the face opened at that size and resolution, and panics exactly if there is no such face or it cannot be opened; neither changes the backend.", "quantifier": "all fonts, faces, sizes and resolutions", "why_tests_cant": "All sizes.", "anchors": ["font/ttf/ttf.go:Backend.UnderlineThickness", "font/ttf/ttf.go:Backend.XHeight"]}
{"id": "C76", "title": "The picture of an expression", "statement": "Drawing the box of an expression never fails and makes exactly the drawing calls of its picture, in this order and at these positions: the pieces of a row follow each other on one baseline by their advances and kerning; a fraction has its numerator and denominator centred above and below its line; delimiters are resized and moved to reach the required height and depth; bars and radicals have their line above the body; arguments of \\frac, \\tfrac and \\binom are 7/10 as large, the index of a root 49/100. Where glue fills the space, positions are rounded to whole pixels. Two parts next to each other are drawn next to each other. The same holds with the TrueType backend for formulas.", "quantifier": "all expressions that can be laid out, sizes, resolutions, positions and measurements of glyphs, in exact arithmetic", "why_tests_cant": "All expressions and fonts.", "anchors": ["mtex/parser.go:Parse", "mtex/parser.go:parser.handleNode", "tex/box.go:Ship.Call", "tex/box.go:HListOf", "font/ttf/ttf.go:Backend.Metrics"]}
{"id": "C77", "title": "Nothing is cut off", "statement": "No glyph and no line of a typeset expression reaches above the top of its box or below its bottom, except that each \\sqrt or \\overline around a part may lower it by up to half a pixel (the rounding of the space under the bar); without them the box contains all of the drawing.", "quantifier": "all expressions that can be laid out, sizes, resolutions and positions, and all fonts whose glyphs grow with the font size and whose delimiters are not flat, in exact arithmetic", "why_tests_cant": "All expressions, nesting depths and fonts.", "anchors": ["mtex/parser.go:Parse", "mtex/parser.go:handleSqrt", "mtex/parser.go:handleOverline", "tex/box.go:Ship.vlistOut"]}
{"id": "C78", "title": "The PNG image of a formula", "statement": "If Render with the PNG renderer returns nil for a formula, it has written one image, ceil(w dpi/72) by ceil(ceil(h+d) dpi/72) pixels for a formula of width w, height h and depth d, that shows exactly the picture of the formula (C76), enlarged from points to pixels: each glyph as the string of its symbol's character in math mode, in its font size and face, each line as a filled rectangle. No glyph or line is above the image or below it, except that n bars (\\sqrt, \\overline) above each other may push the drawing down by up to n/2 points.", "quantifier": "all formulas, font sizes, resolutions and fonts, in exact arithmetic", "why_tests_cant": "All formulas and fonts.", "anchors": ["mtex/render.go:Render", "drawtex/drawimg/drawimg.go:Renderer.Render", "mtex/parser.go:Parse", "tex/box.go:Ship.Call"]}
{"id": "C79", "title": "The GUI shows the expression entered last", "statement": "Every frame of the GUI shows, wherever one of its two picture boxes is laid out, the picture of the text that was in the editor when Ctrl+Enter or Ctrl+Return was last pressed or the button last clicked (at first: of the built-in example), as gio operations or as a PNG image at 256 dpi with the Liberation fonts. If the encoder refuses the expression, the image shown before stays (at first: a blank). The program crashes in a frame exactly if one of its boxes has an expression that cannot be laid out or drawn; it does so for every expression with a subscript or superscript.", "quantifier": "all histories of window events, all orders in which gio lays out the visible widgets, all fonts and encoders", "why_tests_cant": "All histories of events.", "anchors": ["cmd/mtex-render/gio.go:UI.Run", "cmd/mtex-render/gio.go:UI.Layout", "cmd/mtex-render/gio.go:UI.imgRender", "cmd/mtex-render/gio.go:UI.gioRender"]}
{"id": "C80", "title": "How the GUI ends, and the files it writes", "statement": "Without a crash, the GUI runs until the window is destroyed or an event of the Escape key arrives (press or release) and does nothing afterwards. It writes no file but ooo.png: one screenshot after each frame that is the first since F11 was pressed, however often it was pressed; no file at all if F11 is never pressed. Its exit status is 0 if the window was closed without an error or with Escape, 1 if it was closed with an error.", "quantifier": "all histories of window events and all outcomes of taking the screenshot", "why_tests_cant": "All histories of events.", "anchors": ["cmd/mtex-render/gio.go:UI.Run", "cmd/mtex-render/gio.go:UI.screenshot"]}
{"id": "C81", "title": "Rounding errors do not build up", "statement": "In float64, the width of a packed row differs from the exact sum of the widths of its elements, and the x and y coordinate of every drawn character from the exact sum of the distances on the way to it (widths and stretched spaces before it, shifts, heights and depths above it), by at most n * 2^-52 times the sum of their absolute values, n being the number of terms.", "quantifier": "all box trees and origins, all rows and ways of at most 2^52 terms, when the result is finite", "why_tests_cant": "All numbers, lengths and nestings.", "anchors": ["tex/box.go:HList.HPack", "tex/box.go:Ship.Call", "tex/box.go:Ship.hlistOut", "tex/box.go:Ship.vlistOut"]}
{"id": "C82", "title": "Grow undoes Shrink up to rounding", "statement": "In float64, shrinking and then growing a tree, or the other way round, changes nothing but its dimensions, shifts, glue settings and font sizes, each by a relative error of at most 2^-51 if it is zero or between 2^-1000 and 2^1000 in absolute value; infinite dimensions are restored exactly.", "quantifier": "all box trees without accents with size counters of at most 5, all font backends", "why_tests_cant": "All trees and numbers.", "anchors": ["tex/box.go:Box.Shrink", "tex/box.go:Box.Grow", "tex/box.go:Char.Shrink", "tex/box.go:List.Shrink", "tex/box.go:Kern.Shrink", "tex/box.go:Glue.Shrink"]}
{"id": "C83", "title": "Nothing is drawn left or right of an expression's box", "statement": "Shipping the box of an expression draws nothing left of its left edge and nothing right of its right edge, each glyph counted with its advance, if the fonts have no negative advances, kerning moves no glyph past the beginning or end of its neighbour, and the expression has no \\!, no negative \\hspace and no root with an index. (Without these conditions it may: the root sign of \\sqrt[3]{x} starts left of the box.)", "quantifier": "all expressions, nesting depths, positions, font sizes, resolutions and fonts, in exact arithmetic", "why_tests_cant": "All expressions, nesting depths and fonts.", "anchors": ["mtex/parser.go:Parse", "mtex/parser.go:handleSqrt", "mtex/parser.go:handleFrac", "tex/box.go:Ship.hlistOut", "tex/box.go:HList.HPack"]}
{"id": "C84", "title": "No two parts of an expression overlap", "statement": "The cells of any two drawing calls (a glyph's advance times its ascent and descent, a line's rectangle) do not overlap, for expressions as in C83 without bars (\\sqrt, \\overline), if kerning never pulls glyphs together: fractions, binomials, their delimiters, operators and text in any nesting are set beside or above each other. (A bar may push its body half a pixel down onto the next line.)", "quantifier": "all expressions without bars, nesting depths, positions, font sizes, resolutions and fonts, in exact arithmetic", "why_tests_cant": "All expressions, nesting depths and fonts.", "anchors": ["mtex/parser.go:Parse", "mtex/parser.go:handleFrac", "mtex/parser.go:handleBinom", "tex/box.go:Ship.hlistOut", "tex/box.go:Ship.vlistOut"]}
{"id": "C85", "title": "The symbol table generator writes what it was told, reproducibly", "statement": "gen-symbols asks Python once for the twelve sets of the package, by name. If the Python process it starts reports a map of sets, gen-symbols writes a symbols_gen.go that declares exactly these sets, each with its elements in the reported order (read back through Go's string escapes), sorted by name, and exits with status 0. The text does not depend on the iteration order of Go's maps. If Python fails or its output cannot be decoded, the file is left empty, so the tables are lost, and the program still exits with status 0; only if the file cannot be created does it keep its contents.", "quantifier": "all maps reported by Python (ASCII symbols), all map iteration orders, all failures of the process, of creating and of closing the file", "why_tests_cant": "All maps and iteration orders.", "anchors": ["mtex/symbols/gen-symbols.go:main", "mtex/symbols/gen-symbols.go:gen"]}
{"id": "C86", "title": "Metrics in design units: extents are right, advances only at 2048 units per em", "statement": "For every glyph the TrueType backend draws, if the font library scales the glyph's design linearly (rounding to 1/64 pixel): XMin, XMax, YMin, YMax (minus the glyph's offset, zero except for Cmex10) are the designed ink extents times size over units-per-em, up to 1/1536 of the size, and Width and Height their differences; but Advance is the designed advance times size over 2048, whatever the font's units per em, hence correct iff the font has 2048 units per em (Latin Modern has 1000).", "quantifier": "all fonts, glyphs, sizes and resolutions, after all histories of calls, in exact arithmetic", "why_tests_cant": "All fonts and histories.", "anchors": ["font/ttf/ttf.go:Backend.getInfo", "font/ttf/ttf.go:Backend.Metrics", "font/ttf/ttf.go:Backend.RenderGlyph"]}
{"id": "C87", "title": "Flat formulas in float64", "statement": "For an expression without \\frac, \\dfrac, \\tfrac, \\binom, \\sqrt and \\overline, in float64: the width of the box mtex.Parse returns is the sum of the widths of all letters and gaps in it, however nested, and drawing it makes one call per letter, in order, on one baseline, at the origin plus the sum of all widths before the letter, each up to n * 2^-52 times the sum of the absolute values (n the number of parts); its height and depth are exactly those of the highest and deepest letter (at least 0).", "quantifier": "all such expressions, font backends, sizes, resolutions and origins, when the results are finite, as they are if the widths are finite and together at most 2^1022", "why_tests_cant": "All expressions and numbers.", "anchors": ["mtex/parser.go:Parse", "tex/box.go:HList.HPack", "tex/box.go:HList.kern", "tex/box.go:Ship.hlistOut"]}
{"id": "C88", "title": "The lexical grammar", "statement": "ParseExpr reads a source as the tokens of a fixed lexical grammar, at their byte offsets: words are maximal runs of letters; numbers have a base prefix 0x, 0b or 0o, digits and underscores, a fraction and an exponent, each as long as possible; quoted strings, macros (backslash, blanks and one item), comments (to the end of the line outside quotes), spaces, symbols and brackets; TAB, LF and CR separate tokens and a leading byte-order mark is dropped. Every source has exactly one such reading or is refused because of one character no token begins with; ParseExpr returns a tree only in the first case, and when it panics about an unhandled character it is that one.", "quantifier": "all byte strings and all sets of non-ASCII letters", "why_tests_cant": "All inputs.", "anchors": ["scanner.go:newScanner", "scanner.go:texScanner.scan", "scanner.go:texScanner.scanMacro", "scanner.go:texScanner.scanComment", "parser.go:ParseExpr"]}
{"id": "C89", "title": "Trees and drawings are no larger than their source", "statement": "If ParseExpr accepts a source of n bytes, the tree has at most n nodes (macro names included) and is nested at most n deep; if mtex.Parse typesets it, drawing the box makes at most n calls to the renderer. So time and memory cannot blow up, however the source is written.", "quantifier": "all sources ParseExpr and mtex.Parse accept, all font backends, sizes, resolutions and number types", "why_tests_cant": "All inputs.", "anchors": ["parser.go:ParseExpr", "mtex/parser.go:Parse", "tex/box.go:Ship.hlistOut", "tex/box.go:Ship.vlistOut"]}
{"id": "C90", "title": "When packing warns", "statement": "HPack and VPack write at most one log line. They write one exactly when the list is not empty, the requested size differs from the natural size and the children have no glue of order fil, fill or filll (in total) in the direction needed; it starts with \"overfull HList\" (or VList) when the list would have to stretch and \"underfull\" when it would have to shrink. Finite glue does not silence it. A packing that panics logs nothing. HListOf and VListOf (so HCentered and VCentered) never warn unless sizes overflow float64; an HCentered box repacked to another width, as fractions do, never warns; a bar, fill glue and a body, as in \\sqrt and \\overline, warn only if packed below their natural height.", "quantifier": "all lists, all requested sizes, float64 and exact arithmetic", "why_tests_cant": "whether a line is written depends on sums of arbitrary elasticities and sizes and on rounding: (0+x)-x must be zero for every float x", "anchors": ["tex/box.go:setGlue", "tex/box.go:determineOrder", "tex/box.go:HPack", "tex/box.go:VPack", "tex/box.go:HListOf", "tex/box.go:HCentered"]}
{"id": "C91", "title": "Sizes of formulas in float64", "statement": "For an expression of n bytes without \\binom and \\sqrt, in float64: width, height and depth of the box mtex.Parse returns are finite and differ by at most B * (n+2)^2 / 2^40 from the sizes that follow exactly from the expression and the measurements of its glyphs, which themselves may be rounded (to B / 2^46, advances to (1 + advance) / 2^50) (the layout rules of C64: kerned rows, spaces, fractions with their numerators shrunk and stacked around the axis, bars), where B >= 1 bounds every measurement, size times resolution and every \\hspace. So rounding never accumulates visibly, however deep the formula is nested: below 1/1000 pixel for 1000 bytes and B = 1000; and no dimension of the box is larger than 65 B (n+2).", "quantifier": "all such expressions of less than 2^19 bytes, all font backends whose measurements are at most B <= 2^900, all sizes and resolutions", "why_tests_cant": "All expressions and numbers; each packing step rounds.", "anchors": ["mtex/parser.go:Parse", "mtex/parser.go:handleFrac", "tex/box.go:HList.HPack", "tex/box.go:VList.VPack", "tex/box.go:HList.Shrink"]}
{"id": "C92", "title": "Sizes of formulas typeset with TrueType fonts, in float64", "statement": "A formula of n bytes without \\binom and \\sqrt, typeset in float64 with TrueType fonts, on a backend that has only answered calls in math mode for the same size and resolution: its box has, up to B * (n+2)^2 / 2^40, the size that follows exactly from the formula and the integers in the font files (glyph advances and bounds scaled to the size, kerning, lines of size/16). The picture mtex.Render asks its renderer for has that width over 72, and a height that is a whole number of points over 72: the height of the formula plus its depth below the baseline, rounded up, the number before rounding up being correct to 3 times that error. With the PNG renderer at D dots per inch, the image has the width of the formula and that height times D/72, rounded up to whole pixels, up to 2 D times that error.", "quantifier": "all fonts with 32-bit numbers whose scaled measurements are at most B (1 <= B <= 2^900), all such formulas of less than 2^19 bytes, sizes, resolutions, renderers and call histories of one size", "why_tests_cant": "All fonts, formulas and sizes; the scaling and every packing step round.", "anchors": ["mtex/parser.go:Parse", "mtex/render.go:Render", "font/ttf/ttf.go:Backend.Metrics", "font/ttf/ttf.go:Backend.Kern", "font/ttf/ttf.go:Backend.UnderlineThickness"]}
{"id": "C93", "title": "The CI test runner is honest", "statement": "ci/run-tests.go exits with status 0 only if go list succeeded and go test was run exactly once, in order, for every line go list printed that does not contain \"vendor\", and every one of these commands succeeded; with -coverpkg, coverage.txt then is the concatenation of the profiles the commands wrote. Any failure (of go list, of a test, of creating, reading, writing or closing the coverage files) gives status 1, and no package after the failing one is tested. If nothing fails the status is 0. At every moment, also when it is killed, coverage.txt holds whole profiles of the packages that passed, in order (a failed write may leave the beginning of one more). The options given to go test are exactly those the flags ask for. One exception is hidden: a line of 64 KiB or more ends the package list, and the rest is not tested and nobody is told.", "quantifier": "all flags, outputs of go list, results of the commands, input/output failures and crash points", "why_tests_cant": "All histories of commands and failures; the runner itself has no tests.", "anchors": ["ci/run-tests.go:main", "ci/run-tests.go:pkgList"]}
{"id": "C94", "title": "Parsed boxes share nothing", "statement": "Boxes are pointers, and Shrink, Grow, HPack, VPack, SetShift and drawing change them in place (Ship overwrites the widths of lists inside vertical lists). Every box mtex.Parse returns is made of nodes it allocated itself, none of which occurs in it twice, and Parse changes no node that existed before. So after any sequence of Parse, Shrink, Grow, HPack, VPack and Ship calls on any number of parsed boxes, each box is what the calls on it alone make of it (the font backend answering as it does in that order), every drawing makes the same calls, and a panic happens exactly when it would there: no call on one box can be seen in another. HPack and VPack write only the list itself, the others only nodes of the box. This is not so for boxes that share a node: Shrink scales a node once for every place where it occurs.", "quantifier": "all expressions, fonts, sizes, font backends, number types and histories of calls; all heaps", "why_tests_cant": "All histories; aliasing needs every pair of nodes to be compared.", "anchors": ["mtex/parser.go:Parse", "mtex/parser.go:handleFrac", "tex/box.go:HListOf", "tex/box.go:HCentered", "tex/box.go:List.Shrink", "tex/box.go:HList.HPack", "tex/box.go:VList.VPack", "tex/box.go:Ship.vlistOut", "tex/box.go:Ship.Call"]}
{"id": "C95", "title": "Goroutines do not disturb each other", "statement": "Any number of goroutines may call mtex.Render at the same time (each with its own renderer, all with the same fonts), or Parse and then Shrink, Grow, HPack, VPack and Ship on boxes they parsed themselves, each with its own font backend. However the scheduler interleaves their single accesses to memory: a goroutine that ends has made the same calls on its backend and renderer, drawn the same and returned the same value or panicked with the same message as it would have alone, and its boxes are the trees it would have made alone; no node is ever accessed by two goroutines, so there is no data race on nodes, none that existed before is accessed at all, and the boxes of two goroutines have no node in common; and a goroutine that gets the processor again and again ends, whatever the others do. This is not so for a box two goroutines share: two Shrinks of it race and one may be lost.", "quantifier": "all sets of goroutines, sequences of calls, expressions, fonts, font backends, number types and schedules (finite and endless); all memories to start with", "why_tests_cant": "All schedules: an interleaving of single accesses cannot be chosen or enumerated by a test.", "anchors": ["mtex/render.go:Render", "mtex/parser.go:Parse", "tex/box.go:List.Shrink", "tex/box.go:HList.HPack", "tex/box.go:VList.VPack", "tex/box.go:Ship.Call", "tex/box.go:Ship.vlistOut"]}
{"id": "C96", "title": "Typesetting writes nothing to the log", "statement": "setGlue writes \"underfull\" or \"overfull\" to the standard logger when a list is packed to a size its glue cannot give (C90). mtex.Parse never makes it do so for an expression without \\sqrt, also when it panics: with a font backend whose numbers are finite (float64: of magnitude at most 2^450, and at most 2^40 bytes of input), whose line thickness depends on font and resolution only and is not negative, a size and a resolution that are not negative, no line is written; no rounding error is ever reported. In exact arithmetic the same holds with \\sqrt, if the backend's radical sign has a height proportional to its font size; if the sign does not grow, a line is written. With the TrueType backend (fonts with 32-bit numbers, font size and resolution between 0 and 2^200, whatever was asked of the backend before), and so in mtex.Render, nothing is written for an expression without \\sqrt and \\binom. Counting the lines does not change what Parse does.", "quantifier": "all expressions, font backends, sizes, resolutions and lengths in \\hspace, float64 and exact arithmetic", "why_tests_cant": "All expressions and numbers: one rounding error in the wrong place writes a line.", "anchors": ["mtex/parser.go:Parse", "mtex/parser.go:handleSqrt", "mtex/parser.go:handleOverline", "mtex/parser.go:handleFrac", "mtex/render.go:Render", "font/ttf/ttf.go:getInfo", "tex/box.go:setGlue"]}
{"id": "C97", "title": "Pictures in float64", "statement": "Shipping the box of an expression of n bytes without \\binom and \\sqrt, with fractions and overlines nested d deep, at any position, in float64: it always works, and with measurements, position and font size of magnitude at most B it makes exactly the calls of the picture that follows from the expression and the measurements (C76): the same glyphs in the same fonts and lines, in the same order, every coordinate and font size being off by at most e = ((n+2)(d+1))^2 * B / 2^31. Only numerators and denominators, which are centred by glue in whole pixels, may each be half a pixel further left or right, overlined expressions half a pixel further up or down, and a line at most e thick may be missing. Nothing is drawn more than e above the top of the box or below its bottom, if there is no overline; every overline may add half a pixel and e. The same holds for formulas typeset with TrueType fonts, after any calls for the same size; and mtex.Render, if it gets as far as calling its renderer, passes it this drawing with the upper left corner at (0, 0), every glyph as a fresh font backend draws it.", "quantifier": "all expressions with (n+2)(d+1) <= 2^15, font backends, positions and sizes within B (1 <= B <= 2^900); TrueType: all fonts with 32-bit numbers", "why_tests_cant": "All expressions, fonts, positions and numbers; every packing and drawing step rounds, and glue is rounded to pixels again.", "anchors": ["mtex/parser.go:Parse", "mtex/parser.go:handleFrac", "mtex/parser.go:handleOverline", "tex/box.go:HCentered", "tex/box.go:Ship.Call", "tex/box.go:Ship.hlistOut", "tex/box.go:Ship.vlistOut", "tex/box.go:HList.Shrink", "mtex/render.go:Render"]}
