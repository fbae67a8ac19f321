#!/usr/bin/env python3
"""Writes /verif/properties.jsonl from the table below (one source of truth)."""
import json
P=[]
def p(title, statement, quantifier, why, anchors):
    P.append(dict(id="C%02d"%(len(P)+1), title=title, statement=statement, quantifier=quantifier, why_tests_cant=why, anchors=anchors))

# ---------------------------------------------------------------- parsing
p("ParseExpr always terminates and never reports an error value",
  "For every input string ParseExpr terminates, and the outcome is either a node list with a nil error or one of a fixed family of panics (unhandled character, unknown macro, nil macro handler, missing '{', brace in text mode, string literal, stray closing brace / end of input in operand position). It never returns a non-nil error.",
  "all byte strings (any length, any nesting, invalid UTF-8 included)",
  "Tests sample a few well-formed expressions; termination and the outcome classification range over all byte strings.",
  ["parser.go:ParseExpr","parser.go:parser.parse","parser.go:parser.parseNode","scanner.go:texScanner.scan"])
p("Tokens tile the source",
  "The lexer loses, invents and reorders nothing: the input is exactly the concatenation of the raw extents of the successive tokens and of gaps made only of TAB, LF and CR (plus an optional leading byte-order mark); token positions are the byte offsets of these extents, so they strictly increase and never overlap.",
  "all byte strings on which the lexer does not panic",
  "The positions of every token of every input; a test can only compare a handful of offsets.",
  ["scanner.go:texScanner.Next","scanner.go:texScanner.scan","scanner.go:scanMacro","scanner.go:scanComment"])
p("Token text is the source text at the token position",
  "For each token other than comments, the token text equals the source bytes starting at its position; the only exception is a macro whose backslash is followed by TAB/LF/CR, whose text is a backslash followed by the next token's text.",
  "all byte strings, all tokens",
  "Quantifies over every token of every input.",
  ["scanner.go:texScanner.scan","scanner.go:scanMacro","token/token.go:Token"])
p("Every leaf of a parsed tree carries its source text at its position",
  "If ParseExpr(x) succeeds then for each Word, Literal, Symbol and macro name in the result, x[Pos():End()] is exactly the node's text, except for macro names whose backslash is followed by TAB/LF/CR.",
  "all inputs on which ParseExpr succeeds, all nodes of the result",
  "Positions are checked by tests on seven fixed inputs only.",
  ["ast/ast.go:Word.End","ast/ast.go:Symbol.End","ast/ast.go:Literal.End","ast/ast.go:Ident.End","parser.go:parseWord","parser.go:parseSymbol","parser.go:parseNumber"])
p("Parsed trees follow the grammar and account for every token",
  "ParseExpr(x) returns the nodes ns exactly when the token stream of x derives ns in the grammar of documents (braces, brackets, $, ^, _, macro arguments; closing delimiters may be missing only at the end of the input). Reading the tree back in order gives exactly the token stream of x minus comments, spaces and braces that open or close groups, each token once.",
  "all inputs on which ParseExpr succeeds",
  "A dropped or duplicated token on some rare shape of input escapes any finite test list.",
  ["parser.go:parseNode","parser.go:parseMathExpr","parser.go:parseMacroArg","parser.go:parseOptMacroArg","parser.go:parseSup","parser.go:parseSub","parser.go:parseMathLbrace"])
p("Parsing inverts printing to LaTeX source (round trip)",
  "For every well-formed document tree (words, numbers, symbols, spaces, macros with required/optional arguments, math, sub/superscripts, groups, nested to any depth) ParseExpr applied to its LaTeX source returns that tree, with every position equal to the byte offset of the construct in the source.",
  "all well-formed document trees",
  "Round trips must hold for every tree, at every depth.",
  ["parser.go:ParseExpr","macros.go:builtinMacro.parseMacro","scanner.go:texScanner.scan"])
p("Macro nodes match the macro table",
  "In any successful parse each Macro node's name is a known macro and its arguments are exactly those of its signature, in order: one Arg per required argument and at most one OptArg per optional one. In particular unknown macros are never accepted.",
  "all inputs on which ParseExpr succeeds, all Macro nodes of the result",
  "The table has several hundred entries and macros nest arbitrarily.",
  ["macros.go:addBuiltinMacros","macros.go:builtinMacro.parseMacro","parser.go:parseMacro"])
p("Unknown macros are rejected wherever they occur at top level",
  "If the token stream of x contains a macro outside the known table, ParseExpr(x) never succeeds. If that macro follows complete constructs at top level, ParseExpr panics with 'unknown macro' naming it; the macro \\genfrac, which is in the table with a nil handler, panics there with a nil dereference instead.",
  "all inputs whose first offending token is such a macro",
  "Ranges over every macro name outside the table and every prefix.",
  ["parser.go:parseMacro","macros.go:addBuiltinMacros"])
p("Spaces are significant in text and ignored in math",
  "In a successful parse no node below a MathExpr is a Symbol with text ' ' or '\\ '; and when the input has no $ every space (or '\\ ') token is kept as a node, in order with all other tokens. Spaces in math are not always irrelevant: in $x^ 2$ the space becomes the (nil) superscript.",
  "all inputs on which ParseExpr succeeds",
  "Mode is inherited through arbitrary nesting of arguments, groups and scripts.",
  ["parser.go:parseNode","parser.go:parseMathExpr"])
p("Math mode is left exactly where it was entered",
  "After any node has been parsed the parser is back in the mode it had before the node, whatever the nesting; hence text after a closing $ is parsed as text.",
  "all inputs, all nodes",
  "Requires an invariant over the whole recursive descent.",
  ["parser.go:parseMathExpr"])
p("Comments do not change the tree",
  "Inserting a comment that contains no double quote, with its newline, between two top-level constructs only shifts later positions. With a double quote in the comment this is false: the comment swallows the next line.",
  "all inputs, insertion points at top-level token boundaries, and comment bodies",
  "Ranges over all comment bodies and contexts.",
  ["scanner.go:scanComment"])
p("Parsing is compositional",
  "For inputs a and b, if a is a sequence of complete constructs (all groups and operands closed) and b's first character cannot continue a's last token, then ParseExpr(a+b) is ParseExpr(a) followed by ParseExpr(b) with positions shifted by len(a), and panics exactly as ParseExpr(b) does. Text without $ ^ _ braces and macros is always complete.",
  "all pairs of inputs meeting the boundary condition",
  "Relates runs on three different inputs.",
  ["parser.go:parser.parse"])
p("Unclosed groups are accepted silently",
  "The parser reports no problem when the input ends inside a group: the open group's closing position is left 0, and such groups occur only on the last branch of the tree. A nonzero closing position recorded in a MathExpr, Arg or OptArg is the offset of a '$', '}' or ']' in the source, and the opening position is the offset of a matching opener.",
  "all inputs on which ParseExpr succeeds",
  "All nestings and truncation points.",
  ["parser.go:parseMacroArg","parser.go:parseOptMacroArg","parser.go:parseMathExpr"])
p("No nil nodes except as script operands",
  "In a successful parse no node list contains a nil node; a nil node occurs only as the operand of Sub or Sup, and only when the operand token is a comment, or a space in math mode.",
  "all inputs on which ParseExpr succeeds",
  "Invariant of all reachable trees.",
  ["parser.go:parseSup","parser.go:parseSub","parser.go:parse"])
# ---------------------------------------------------------------- ast
p("Walk visits depth-first, in order, with matching nil calls",
  "For a visitor that always returns itself, Walk on a tree without nil nodes calls Visit once per node in depth-first source order and Visit(nil) once after each node's children; a visitor that returns nil for a node prunes exactly that subtree and gets no Visit(nil) for it.",
  "all trees, all (stateful) visitors",
  "Visitors are arbitrary programs and trees are unbounded.",
  ["ast/walk.go:Walk","ast/walk.go:walkNodes","ast/walk.go:Inspect"])
p("Walk panics on nil children",
  "The documentation says Walk visits the non-nil children only; in fact a nil child is visited and Walk panics as soon as the visitor accepts it. Parsed trees can contain such a child.",
  "all trees containing a nil node that the visitor reaches",
  "Shows that a documented guarantee fails on reachable trees.",
  ["ast/walk.go:Walk"])
p("Print never panics and identifies the tree up to positions and delimiters",
  "Print writes a finite text for every tree, and two trees with the same output are equal up to positions and math delimiters (assuming the quoting of texts is injective and self-delimiting), so that comparing printed trees is a sound comparison.",
  "all pairs of trees",
  "Injectivity ranges over pairs of unbounded trees.",
  ["ast/ast.go:Print"])
p("Node extents are ordered",
  "In a successful parse Pos() of a node is not after any token of its subtree and siblings' positions strictly increase; End() is greater than Pos() for leaves and closed groups (nodes whose Pos or End is the sentinel -1/0 excepted). End() of an Arg, OptArg or MathExpr is the position of its closing delimiter, not the position after it as the interface documents.",
  "all nodes of all successful parses",
  "Universally quantified over trees and nodes.",
  ["ast/ast.go:List.Pos","ast/ast.go:Macro.End","ast/ast.go:Arg.End","ast/ast.go:MathExpr.End"])
p("Kind names are total and distinct",
  "Kind.String never panics for any int; it gives the seventeen declared names for the declared kinds, which are pairwise distinct, and 'Kind(n)' otherwise.",
  "all int values",
  "Slice-index arithmetic over a packed name table for every int.",
  ["token/kind_string.go:Kind.String"])
# ---------------------------------------------------------------- symbols
p("Symbol sets behave as finite sets",
  "NewSet(vs...).Has(k) iff k is among vs; UnionOf(sets...).Has(k) iff some set has k; Keys returns exactly the members, strictly sorted, without duplicates.",
  "all lists of strings and lists of sets",
  "Algebraic laws over all sets.",
  ["mtex/symbols/set.go:NewSet","mtex/symbols/set.go:UnionOf","mtex/symbols/set.go:Keys","mtex/symbols/symbols.go:IsSpaced"])
p("Index maps symbols to runes exactly as documented",
  "In text mode Index returns the first UTF-8 rune of the symbol and panics iff that is RuneError; in math mode it returns U+2212 for '-', the character itself for other one-byte ASCII symbols, the table entry of the name with its first backslash removed otherwise, and panics iff there is none.",
  "all strings, both modes",
  "All strings, including invalid UTF-8 and multiple backslashes.",
  ["internal/tex2unicode/utf8.go:Index","internal/tex2unicode/utf8.go:HasSymbol","internal/tex2unicode/utf8.go:Symbols"])
p("UTF-8 decoding of source text",
  "Every Unicode scalar value written in UTF-8 is read back as one character of the right width and value, and every byte string is split into characters whose raw bytes concatenate to it.",
  "all scalar values, all byte strings",
  "Bit-level encode/decode identity over 1.1 million values and all strings.",
  ["scanner.go:newScanner","internal/tex2unicode/utf8.go:Index"])
# ---------------------------------------------------------------- tex boxes
p("HPack sets the requested width exactly",
  "After HPack(w, false) the width is exactly w, and after HPack(w, true) it is w plus the sum of the children's widths taken left to right; the children are unchanged.",
  "all horizontal lists, all widths, every float64 value",
  "All lists and all floats, bit for bit.",
  ["tex/box.go:HList.HPack"])
p("A packed horizontal list encloses its children",
  "After HPack the height (depth) is the maximum of 0 and the shift-adjusted heights (depths) of the children, skipping children with a running (infinite) height or depth, and is therefore at least each of them.",
  "all horizontal lists whose dimensions are not NaN",
  "Fold over arbitrary lists.",
  ["tex/box.go:HList.HPack","tex/box.go:Box.hpackDims","tex/box.go:List.hpackDims","tex/box.go:Char.hpackDims"])
p("VPack height, depth and width laws",
  "After VPack the width is the maximum of the non-running child widths; natural height plus depth is the sum of the children's heights, depths and kerns; the depth is the last box's depth limited to the given maximum, the excess going into the height; VPack(h,false,l) gives height exactly h.",
  "all vertical lists, heights and depth limits",
  "Fold over arbitrary lists.",
  ["tex/box.go:VList.VPack","tex/box.go:Box.vpackDims","tex/box.go:Kern.vpackDims","tex/box.go:Glue.vpackDims"])
p("Glue setting distributes exactly the missing or excess space",
  "HPack/VPack choose the highest glue order with a nonzero total and the right sign, and in exact arithmetic the natural size plus glue-set times that total equals the requested size; when no glue of the needed kind exists the sign is 0.",
  "all lists and requested sizes",
  "Arithmetic identity over all lists.",
  ["tex/box.go:determineOrder","tex/box.go:List.setGlue","tex/box.go:HList.HPack","tex/box.go:VList.VPack"])
p("Kerning insertion preserves the content",
  "HListOf with kerning keeps every element in order and inserts exactly one Kern, of the element's kerning with its successor, after each element whose kerning is nonzero, and nothing else.",
  "all element lists and all font backends",
  "All lists, all backends.",
  ["tex/box.go:HList.kern","tex/box.go:Char.Kerning","tex/box.go:HListOf"])
p("Shrink and Grow scale the whole tree",
  "Shrink multiplies every dimension, shift and font size in the tree by 0.7 and Grow by 10/7, at every depth, and changes nothing else; in exact arithmetic they are inverse to each other, in float64 they are not.",
  "all box trees without accents, all numbers of applications",
  "All trees, any depth; iterated.",
  ["tex/box.go:Box.Shrink","tex/box.go:Box.Grow","tex/box.go:Char.Shrink","tex/box.go:List.Shrink","tex/box.go:Glue.Shrink","tex/box.go:Kern.Shrink"])
p("Shrinking has no floor",
  "The documentation says there are only a few size levels after which things no longer get smaller; in fact every Shrink of a freshly built node scales it again, without limit.",
  "all nodes, any number of Shrink calls",
  "Unbounded iteration.",
  ["tex/box.go:Box.Shrink","tex/box.go:numSizeLevels"])
p("Packing commutes with scaling",
  "In exact arithmetic shrinking a naturally packed list gives the same dimensions as packing the shrunk children.",
  "all lists of finite non-accent nodes",
  "All lists.",
  ["tex/box.go:List.Shrink","tex/box.go:HList.HPack","tex/box.go:VList.VPack"])
p("Shipping renders each glyph and rule once, in order, at its layout position",
  "Ship.Call emits one glyph call per Char/Accent and one rectangle per visible Rule, in depth-first order, each at the position obtained by adding up the widths (resp. heights) of what precedes it, with list shifts and the origin applied.",
  "all box trees and origins",
  "All trees.",
  ["tex/box.go:Ship.Call","tex/box.go:Ship.hlistOut","tex/box.go:Ship.vlistOut"])
p("Shipping the same tree twice gives the same output",
  "Although vlistOut overwrites the widths of nested lists, calling Ship.Call again on the same tree emits exactly the same calls.",
  "all box trees (without sharing) and origins",
  "Relates two runs with intervening mutation, for all trees.",
  ["tex/box.go:Ship.vlistOut"])
p("Shipping is translation invariant",
  "In exact arithmetic moving the origin by (dx,dy) moves every emitted glyph and rectangle by (dx,dy) and changes nothing else.",
  "all box trees and offsets",
  "All trees.",
  ["tex/box.go:Ship.Call"])
p("Shipped content fills the packed width",
  "In exact arithmetic the horizontal advance of a shipped horizontal list is the sum of its children's widths plus the rounded glue, so that for a list packed to width w with usable glue it differs from w by at most 1/2.",
  "all horizontal lists with glue total within the clamp range",
  "Rounded running sums over arbitrary lists.",
  ["tex/box.go:Ship.hlistOut","tex/box.go:HList.HPack","tex/utils.go:clamp"])
p("Push depth is balanced",
  "After Ship.Call the nesting counter is 0 again, and the recorded maximum is the list nesting depth of the tree.",
  "all box trees",
  "All trees.",
  ["tex/box.go:Ship.hlistOut","tex/box.go:Ship.vlistOut"])
p("When shipping panics",
  "Ship.Call panics exactly when a Char or Accent is reached in a vertical list, or when a visible node without a render method (Box, List, SubSuperCluster) is reached in a horizontal list; trees built from the exported constructors without characters in vertical lists and without SubSuperCluster never panic.",
  "all box trees",
  "All trees.",
  ["tex/box.go:Ship.hlistOut","tex/box.go:Ship.vlistOut","tex/box.go:VBox","tex/box.go:HBox"])
p("Vertical advance agrees with packing except for flat boxes",
  "In exact arithmetic, shipping a naturally packed vertical list advances by its height plus depth provided every box or rule in it has positive depth or no extent; a box with height but no depth is counted by VPack and skipped by Ship.",
  "all vertical lists",
  "All lists.",
  ["tex/box.go:Ship.vlistOut","tex/box.go:VList.VPack"])
p("Running rules fill the enclosing box",
  "A rule with infinite height/depth in a horizontal list is drawn with the enclosing list's height/depth, and one with infinite width in a vertical list with the enclosing list's width.",
  "all lists and rules",
  "All lists.",
  ["tex/box.go:HRule","tex/box.go:VRule","tex/box.go:Ship.hlistOut","tex/box.go:Ship.vlistOut"])
# ---------------------------------------------------------------- mtex
p("mtex.Parse terminates and its outcome is determined by the tree",
  "For every expression and every backend that answers all queries, mtex.Parse terminates: it returns a horizontal list and a nil error exactly when the expression parses and no refused construct is reached by the traversal; otherwise it panics. It never returns a non-nil error.",
  "all expressions, sizes, resolutions and backends",
  "All inputs.",
  ["mtex/parser.go:Parse","mtex/parser.go:visitor.Visit","mtex/parser.go:parser.handleNode"])
p("Sub- and superscripts are never rendered",
  "mtex.Parse panics on every expression whose syntax tree has a subscript or superscript that the visitor reaches.",
  "all expressions with a reachable Sub or Sup",
  "All expressions.",
  ["mtex/parser.go:visitor.Visit"])
p("Which math symbols mtex accepts",
  "In math mode a Symbol is typeset iff it is one of + - * = < > : . ( ) ; every other symbol the parser can produce there (such as , ; ! / ? ' [ ]) panics.",
  "all symbols the lexer can produce, all contexts",
  "Cross product of several tables and handlers.",
  ["mtex/parser.go:parser.handler","mtex/parser.go:handleSymbol","mtex/symbols/symbols_gen.go:PunctuationSymbols"])
p("Groups directly inside math are dropped",
  "The content of a brace group that is a direct child of a math expression never reaches the box list: $a{b}c$ is typeset as $ac$.",
  "all expressions and all group contents",
  "All group contents.",
  ["mtex/parser.go:visitor.Visit"])
p("The font type and math flag are restored after math",
  "After a math expression, the visitor's font and math flag are exactly what they were before, so text after it is set as the text before it.",
  "all expressions",
  "All nestings.",
  ["mtex/parser.go:visitor.Visit"])
p("Every macro that parses has a typesetting handler",
  "Each macro name the latex parser accepts has a handler in mtex, so 'unknown macro' cannot occur in mtex for parsed input.",
  "all macro names accepted by the parser",
  "Agreement of two large independent tables.",
  ["mtex/parser.go:parser.handler","mtex/parser.go:parser.init","macros.go:addBuiltinMacros"])
p("Fraction layout",
  "\\frac and \\tfrac stack the once-shrunk numerator, a bar and the once-shrunk denominator (\\dfrac does not shrink), both centered in the width of the wider one, the bar having that width and the backend's underline thickness; \\binom has the same layout with an invisible bar between parentheses.",
  "all numerators, denominators, states and backends",
  "All contents.",
  ["mtex/parser.go:genfrac","mtex/parser.go:handleFrac","mtex/parser.go:handleDFrac","mtex/parser.go:handleBinom"])
p("Operator spacing",
  "A spaced symbol is typeset with a kern of 0.2 em on both sides, except a binary operator whose last preceding non-space byte is '{', '(', '[' or '<'. The intended exemption at the start of the expression never applies.",
  "all expressions, positions and symbols",
  "All contexts.",
  ["mtex/parser.go:handleSymbol"])
p("Render passes the right dimensions and drawing to the renderer",
  "Render calls the renderer once, with width/72, ceil(height+max(depth,0))/72, the given dpi and a canvas holding exactly the calls of one Ship at origin (0,0) in order; the drawing does not depend on dpi.",
  "all expressions, sizes, resolutions, fonts",
  "All inputs.",
  ["mtex/render.go:Render","drawtex/canvas.go:Canvas"])
# ---------------------------------------------------------------- backends
p("The canvas is an append-only log",
  "After any sequence of RenderGlyph and RenderRectFilled calls Ops() lists exactly those calls in order.",
  "all call sequences",
  "All histories.",
  ["drawtex/canvas.go:Canvas.RenderGlyph","drawtex/canvas.go:Canvas.RenderRectFilled","drawtex/canvas.go:Canvas.Ops"])
p("Font metrics do not depend on the call history",
  "Metrics, Kern and RenderGlyph of the TrueType backend return what a fresh backend would, whatever was asked before. This is false across the math flag, which is not part of the cache key; it holds for any history that uses each (symbol, font, dpi) with one value of the flag.",
  "all call histories",
  "Cache coherence over all histories.",
  ["font/ttf/ttf.go:Backend.getInfo","font/ttf/ttf.go:ttfKey"])
p("TrueType metrics are consistent",
  "The metrics returned for a glyph satisfy Width=XMax-XMin, Iceberg=YMax, and in exact arithmetic Height=YMax-YMin, and all scale linearly with the font size; hence a Char's height plus depth is its glyph height.",
  "all glyphs, fonts and sizes",
  "All glyph bounds.",
  ["font/ttf/ttf.go:Backend.getInfo","tex/box.go:Char.updateMetrics"])
p("Fonts are parsed once and shared by all goroutines",
  "Under any interleaving of any number of concurrent calls, the font files are parsed at most once, and every call that returns gets the same fully initialised value, which never changes; no call can deadlock and the shared variable is never raced on. If a file is bad, exactly one call panics and all others return nil.",
  "all schedules of any number of goroutines",
  "Schedules cannot be enumerated by tests.",
  ["font/lm/lm.go:Fonts","font/liberation/liberation.go:Fonts"])
p("Typeset expressions can be shipped",
  "Every box list returned by mtex.Parse is built only with the exported tex constructors, has no character directly inside a vertical list and no SubSuperCluster, and shipping it at any origin never panics.",
  "all expressions, sizes, resolutions, backends and origins",
  "Composition of two packages over all inputs.",
  ["mtex/parser.go:Parse","mtex/parser.go:parser.handleNode","tex/box.go:Ship.Call"])
p("Only letters are italic",
  "In the italic font the TrueType backend measures and draws every symbol below U+10000 that is not a Unicode letter exactly as in the roman font; letters are drawn from the italic face with slanted metrics.",
  "all symbols, sizes, resolutions and font sets",
  "All runes and fonts.",
  ["font/ttf/ttf.go:Backend.getGlyph","font/ttf/ttf.go:Backend.RenderGlyph"])
p("Kerning is zero across fonts and is not scaled",
  "Backend.Kern returns 0 when the two fonts differ in name or size; otherwise its value does not depend on the size or the resolution asked for.",
  "all fonts, symbols, sizes and histories",
  "All argument combinations.",
  ["font/ttf/ttf.go:Backend.Kern"])
p("Faces of the TrueType backend",
  "A new backend draws a glyph of type default, rm, it or bf with the face of that name, of type regular with the rm face (of type it with the rm face if it is not a letter, C53), in the size asked for and with the metrics Metrics reports. No answer of the backend depends on the bold-italic face, and asking for a font type other than default, regular, rm, it, bf panics, after any history.",
  "all call histories, fonts and requests",
  "All histories.",
  ["font/ttf/ttf.go:Backend.getFont"])
p("Characters are drawn with the metrics they were laid out with",
  "When Render draws an expression, each character of the layout is drawn once, in order, and every character that was not shrunk is drawn with exactly the metrics the layout used for it.",
  "all expressions, sizes, resolutions, fonts and renderers",
  "All inputs and cache contents.",
  ["mtex/render.go:Render","font/ttf/ttf.go:Backend.getInfo","tex/box.go:Char.Render"])
p("Formulas that can be laid out can be drawn",
  "If an expression has no text outside of dollars and its layout does not panic, Render does not panic by itself, and every glyph and rule is what a fresh backend would draw for that call. With text outside of dollars both fail, because text is measured in text mode and drawn in math mode.",
  "all formulas, sizes, resolutions, fonts and renderers",
  "All inputs.",
  ["mtex/render.go:Render","font/ttf/ttf.go:Backend.RenderGlyph","mtex/parser.go:parser.handleNode"])
p("The PNG renderer draws the canvas at the right size",
  "drawimg writes one image whose size is the size in inches times the resolution, rounded up, showing every operation of the canvas once, in order, in black, with coordinates multiplied by dpi/72; in exact arithmetic the picture at q times the resolution is q times as large. It panics exactly when a font face cannot be opened.",
  "all canvases, sizes and resolutions",
  "All drawings.",
  ["drawtex/drawimg/drawimg.go:Renderer.Render","drawtex/drawimg/drawimg.go:drawGlyph","drawtex/drawimg/drawimg.go:drawRect"])
p("What is drawn is what was written, in reading order",
  "Drawing a typeset expression makes exactly one drawing call per visible mark of the expression, in reading order: each letter of text in the roman face, each math symbol in the italic face, function names letter by letter in roman, numerators before denominators, a shrunk size inside \\frac, \\tfrac, \\binom and twice shrunk in a root index, one bar per fraction, radical and overline, and no bar for \\binom; spacing commands and brace groups directly inside dollars show nothing. Glyphs: for all arithmetic; bars: in exact arithmetic with fonts whose rules have a positive thickness.",
  "all expressions, fonts, sizes, resolutions and drawing origins",
  "All expressions and font metrics.",
  ["mtex/parser.go:visitor.Visit","mtex/parser.go:parser.genfrac","mtex/parser.go:parser.handleSqrt","tex/box.go:Ship.Call"])
p("Fractions are drawn where they should be",
  "In exact arithmetic, for \\frac, \\tfrac and \\dfrac with rule thickness r and spacing unit h: drawing the fraction at (x, v) draws the numerator with its bottom h + r above the math axis, one bar of thickness r and the width of the wider part whose upper edge is h below the axis (not centred on it), and the denominator with its top 3h below the axis, both parts centred up to half a pixel, and nothing else; the size of the box is that of the stack plus 2h of width. \\binom is the same without a bar, between parentheses.",
  "all numerators, denominators, fonts, sizes, resolutions, positions and drawing origins",
  "All argument boxes and metrics.",
  ["mtex/parser.go:parser.genfrac","mtex/parser.go:handleFrac","mtex/parser.go:parser.handleDFrac","mtex/parser.go:parser.handleTFrac","mtex/parser.go:parser.handleBinom","tex/box.go:HRule","tex/box.go:VListOf","tex/box.go:VList.VPack"])
p("Overlines are drawn above their body",
  "An \\overline puts its body under a bar of the rule thickness t; in exact arithmetic the bar is as wide as the body, its upper edge is 2t + e above the body, where e is size*dpi/1200, the body keeps its place up to half a pixel, and the box is 3t + e higher than the body.",
  "all bodies, fonts, sizes, resolutions, positions and drawing origins",
  "All argument boxes and metrics.",
  ["mtex/parser.go:parser.handleOverline","tex/box.go:VList.VPack","tex/box.go:HRule"])
p("Radicals are drawn around their body",
  "\\sqrt lays out index, body and a check as high as the body plus five rule thicknesses; in exact arithmetic, when the check has that size, the index is drawn 3/5 of the height of the check above the baseline and overlaps it by half its width, the bar starts at the right edge of the check, covers body and 2t of padding on both sides, and the body is drawn on the baseline up to half a pixel.",
  "all indices, bodies, fonts, sizes, resolutions, positions and drawing origins",
  "All argument boxes and metrics.",
  ["mtex/parser.go:parser.handleSqrt","tex/box.go:AutoHeightChar","tex/box.go:VList.VPack"])
p("Delimiters reach as high and as deep as asked",
  "In exact arithmetic, if the metrics of a glyph are proportional to the font size and the glyph ends neither below nor above the baseline only (its extents above and below are not negative and not both zero), AutoHeightChar, with a named font, returns a box with that one glyph, from the same face, that reaches exactly the requested height above and depth below the baseline.",
  "all glyphs, heights, depths, fonts and backends",
  "All sizes.",
  ["tex/box.go:AutoHeightChar","tex/box.go:NewChar"])
p("The size of a typeset expression follows from its glyphs",
  "In exact arithmetic, the width, height and depth of the box returned by mtex.Parse are given by a recursive function of the syntax tree and of the measurements of single glyphs: words and rows add advances and kerning pairs; operators, relations and arrows take 1/5 em on both sides except a binary operator after an opening delimiter; a point is followed by 1/5 em unless it stands between digits; spacing commands take their fixed fractions of an em; fractions, binomials, radicals and overlines have the sizes of their layouts.",
  "all expressions, sizes, resolutions and fonts whose delimiters are not flat and whose lines are not negative",
  "All expressions and metrics.",
  ["mtex/parser.go:Parse","mtex/parser.go:parser.handleSymbol","mtex/parser.go:parser.handleSpace","mtex/parser.go:parser.makeSpace","mtex/parser.go:visitor.Visit","tex/box.go:HListOf","tex/box.go:HList.kern"])
p("Sizes of parts add up; spaces add exactly their width",
  "In exact arithmetic, an expression made of two parts is as wide as both together plus the kerning of the glyphs that meet, as high as the higher and as deep as the deeper part; a spacing command between two parts adds exactly its fraction of an em to the width and prevents kerning across it, in text and in formulas.",
  "all expressions, splits, spacing commands, sizes, resolutions and fonts",
  "All expressions.",
  ["mtex/parser.go:Parse","mtex/parser.go:parser.handleSpace","tex/box.go:HListOf","tex/box.go:HList.HPack"])
p("Typesetting is proportional to size and resolution",
  "In exact arithmetic, if all measurements of the fonts grow in proportion to the font size and the resolution, then an expression set c times as large at r times the resolution is c*r times as wide, high and deep.",
  "all expressions, sizes, resolutions, factors and such fonts",
  "All expressions and factors.",
  ["mtex/parser.go:Parse","mtex/parser.go:parser.handleSqrt","mtex/parser.go:parser.handleOverline","tex/box.go:AutoHeightChar"])
p("mtex-render changes only its output file, at every crash point",
  "When mtex-render is stopped after any of its file operations, or ends in any way, no file but the one named by -o has changed, and that one is untouched, empty, or holds a beginning of the PNG of the expression set with the Liberation fonts at the given size and resolution. Exit status 0 (without -h) means the whole PNG was written and closed without error; if nothing fails it is reached. An expression that cannot be drawn panics and leaves the output file empty, whatever it held. Without exactly one expression, with bad flags, or if the file cannot be created, nothing is touched.",
  "all command lines, fonts, file systems, write errors and crash points",
  "All crash points and failures of every write.",
  ["cmd/mtex-render/main.go:main","mtex/render.go:Render","drawtex/drawimg/drawimg.go:Renderer.Render"])
p("The flags of mtex-render",
  "A command line is accepted exactly if it is a sequence of well-formed settings (-name=value, -name value, -gui, with one or two dashes) followed by the other arguments, which must come after \"--\" if the first looks like a flag; each option then has the last value given to it, or its default (72 dpi, 12 points, out.png, no GUI).",
  "all command lines",
  "All command lines.",
  ["cmd/mtex-render/main.go:main"])
p("The glyph cache cannot be noticed when formulas are laid out",
  "With a TrueType backend, the result or panic of mtex.Parse on an expression made of formulas is that of a fresh backend, whatever formulas were laid out with the same backend before and whatever calls in math mode, or drawing calls, it served.",
  "all fonts, formulas, sizes, resolutions and histories of formulas and math-mode calls, in exact arithmetic",
  "All histories.",
  ["font/ttf/ttf.go:Backend.getInfo","mtex/parser.go:Parse"])
p("The size of the picture of a formula follows from the fonts",
  "In exact arithmetic, the box of a formula typeset with TrueType fonts has the width, height and depth that follow from the formula and the measurements of single glyphs of the fonts; mtex.Render asks for a picture of that width, and of the height plus the depth (if positive) rounded up to whole points; the PNG has that size times the resolution over 72, rounded up to whole pixels. With fonts without kerning, a formula set c times as large has a box c times as large.",
  "all fonts whose delimiters have an extent, formulas, sizes and resolutions",
  "All formulas and fonts.",
  ["mtex/parser.go:Parse","mtex/render.go:Render","font/ttf/ttf.go:Backend.Metrics","drawtex/drawimg/drawimg.go:Renderer.Render"])
p("The PDF writer draws nothing",
  "drawpdf.Write produces one document with one page of the given size in points and nothing on it; the calls on the PDF library do not depend on the canvas.",
  "all canvases, sizes and file names",
  "All canvases.",
  ["drawtex/drawpdf/drawpdf.go:Write"])
p("The GUI renderer shows every operation once and restores the gio state",
  "The renderer of the GUI adds to the list of gio operations, for each operation of the canvas in order, one label (upper left corner one font size above the baseline, italic if the glyph is slanted) or one filled rectangle (its corners moved by the renderer's offset), at dpi/72 times its coordinates, all relative to the same origin and clip area, which are in force again at the end.",
  "all canvases, resolutions, offsets, previous operation lists, and any rounding to float32",
  "All canvases and states.",
  ["cmd/mtex-render/gio.go:gioRenderer.Render","cmd/mtex-render/gio.go:gioRenderer.drawGlyph","cmd/mtex-render/gio.go:gioRenderer.drawRect"])
p("Glue by name",
  "NewGlue accepts exactly eight names and panics on any other; glue has no natural width. When a list with two glues is stretched or compressed, the stronger glue takes all the space (filll over fill over fil and ss; for compression the neg_ kinds and ss), equally strong ones share it, up to rounding to integers. HCentered and VCentered use the kind ss on both sides, so a centred character sticks in or out equally on both sides.",
  "all names, pairs of kinds, characters and amounts of space up to 10^9, in exact arithmetic",
  "All amounts and pairs.",
  ["tex/box.go:NewGlue","tex/box.go:HList.HPack","tex/box.go:Ship.hlistOut"])
p("Characters take their advance",
  "A character made by NewChar is as wide as its ink (a blank: as its advance), as high as its ink reaches above the baseline, and height plus depth is the height of the ink. A list made by HListOf with kerning is as wide as the advances of its characters plus the widths of its other elements plus the kerning of neighbouring characters; without kerning it is as wide as its elements.",
  "all symbols, backends and lists with finite widths, in exact arithmetic",
  "All lists.",
  ["tex/box.go:NewChar","tex/box.go:HListOf","tex/box.go:Char.Kerning"])
p("Lines and x-heights of the TrueType backend",
  "UnderlineThickness is 1/16 of the font size times dpi/72 for every face; XHeight is the negated x-height of the face opened at that size and resolution, and panics exactly if there is no such face or it cannot be opened; neither changes the backend.",
  "all fonts, faces, sizes and resolutions",
  "All sizes.",
  ["font/ttf/ttf.go:Backend.UnderlineThickness","font/ttf/ttf.go:Backend.XHeight"])
p("The picture of an expression",
  "Drawing the box of an expression never fails and makes exactly the drawing calls of its picture, in this order and at these positions: the pieces of a row follow each other on one baseline by their advances and kerning; a fraction has its numerator and denominator centred above and below its line; delimiters are resized and moved to reach the required height and depth; bars and radicals have their line above the body; arguments of \\frac, \\tfrac and \\binom are 7/10 as large, the index of a root 49/100. Where glue fills the space, positions are rounded to whole pixels. Two parts next to each other are drawn next to each other. The same holds with the TrueType backend for formulas.",
  "all expressions that can be laid out, sizes, resolutions, positions and measurements of glyphs, in exact arithmetic",
  "All expressions and fonts.",
  ["mtex/parser.go:Parse","mtex/parser.go:parser.handleNode","tex/box.go:Ship.Call","tex/box.go:HListOf","font/ttf/ttf.go:Backend.Metrics"])
p("Nothing is cut off",
  "No glyph and no line of a typeset expression reaches above the top of its box or below its bottom, except that each \\sqrt or \\overline around a part may lower it by up to half a pixel (the rounding of the space under the bar); without them the box contains all of the drawing.",
  "all expressions that can be laid out, sizes, resolutions and positions, and all fonts whose glyphs grow with the font size and whose delimiters are not flat, in exact arithmetic",
  "All expressions, nesting depths and fonts.",
  ["mtex/parser.go:Parse","mtex/parser.go:handleSqrt","mtex/parser.go:handleOverline","tex/box.go:Ship.vlistOut"])
p("The PNG image of a formula",
  "If Render with the PNG renderer returns nil for a formula, it has written one image, ceil(w dpi/72) by ceil(ceil(h+d) dpi/72) pixels for a formula of width w, height h and depth d, that shows exactly the picture of the formula (C76), enlarged from points to pixels: each glyph as the string of its symbol's character in math mode, in its font size and face, each line as a filled rectangle. No glyph or line is above the image or below it, except that n bars (\\sqrt, \\overline) above each other may push the drawing down by up to n/2 points.",
  "all formulas, font sizes, resolutions and fonts, in exact arithmetic",
  "All formulas and fonts.",
  ["mtex/render.go:Render","drawtex/drawimg/drawimg.go:Renderer.Render","mtex/parser.go:Parse","tex/box.go:Ship.Call"])
p("The GUI shows the expression entered last",
  "Every frame of the GUI shows, wherever one of its two picture boxes is laid out, the picture of the text that was in the editor when Ctrl+Enter or Ctrl+Return was last pressed or the button last clicked (at first: of the built-in example), as gio operations or as a PNG image at 256 dpi with the Liberation fonts. If the encoder refuses the expression, the image shown before stays (at first: a blank). The program crashes in a frame exactly if one of its boxes has an expression that cannot be laid out or drawn; it does so for every expression with a subscript or superscript.",
  "all histories of window events, all orders in which gio lays out the visible widgets, all fonts and encoders",
  "All histories of events.",
  ["cmd/mtex-render/gio.go:UI.Run","cmd/mtex-render/gio.go:UI.Layout","cmd/mtex-render/gio.go:UI.imgRender","cmd/mtex-render/gio.go:UI.gioRender"])
p("How the GUI ends, and the files it writes",
  "Without a crash, the GUI runs until the window is destroyed or an event of the Escape key arrives (press or release) and does nothing afterwards. It writes no file but ooo.png: one screenshot after each frame that is the first since F11 was pressed, however often it was pressed; no file at all if F11 is never pressed. Its exit status is 0 if the window was closed without an error or with Escape, 1 if it was closed with an error.",
  "all histories of window events and all outcomes of taking the screenshot",
  "All histories of events.",
  ["cmd/mtex-render/gio.go:UI.Run","cmd/mtex-render/gio.go:UI.screenshot"])
p("Rounding errors do not build up",
  "In float64, the width of a packed row differs from the exact sum of the widths of its elements, and the x and y coordinate of every drawn character from the exact sum of the distances on the way to it (widths and stretched spaces before it, shifts, heights and depths above it), by at most n * 2^-52 times the sum of their absolute values, n being the number of terms.",
  "all box trees and origins, all rows and ways of at most 2^52 terms, when the result is finite",
  "All numbers, lengths and nestings.",
  ["tex/box.go:HList.HPack","tex/box.go:Ship.Call","tex/box.go:Ship.hlistOut","tex/box.go:Ship.vlistOut"])
p("Grow undoes Shrink up to rounding",
  "In float64, shrinking and then growing a tree, or the other way round, changes nothing but its dimensions, shifts, glue settings and font sizes, each by a relative error of at most 2^-51 if it is zero or between 2^-1000 and 2^1000 in absolute value; infinite dimensions are restored exactly.",
  "all box trees without accents with size counters of at most 5, all font backends",
  "All trees and numbers.",
  ["tex/box.go:Box.Shrink","tex/box.go:Box.Grow","tex/box.go:Char.Shrink","tex/box.go:List.Shrink","tex/box.go:Kern.Shrink","tex/box.go:Glue.Shrink"])
p("Nothing is drawn left or right of an expression's box",
  "Shipping the box of an expression draws nothing left of its left edge and nothing right of its right edge, each glyph counted with its advance, if the fonts have no negative advances, kerning moves no glyph past the beginning or end of its neighbour, and the expression has no \\!, no negative \\hspace and no root with an index. (Without these conditions it may: the root sign of \\sqrt[3]{x} starts left of the box.)",
  "all expressions, nesting depths, positions, font sizes, resolutions and fonts, in exact arithmetic",
  "All expressions, nesting depths and fonts.",
  ["mtex/parser.go:Parse","mtex/parser.go:handleSqrt","mtex/parser.go:handleFrac","tex/box.go:Ship.hlistOut","tex/box.go:HList.HPack"])
p("No two parts of an expression overlap",
  "The cells of any two drawing calls (a glyph's advance times its ascent and descent, a line's rectangle) do not overlap, for expressions as in C83 without bars (\\sqrt, \\overline), if kerning never pulls glyphs together: fractions, binomials, their delimiters, operators and text in any nesting are set beside or above each other. (A bar may push its body half a pixel down onto the next line.)",
  "all expressions without bars, nesting depths, positions, font sizes, resolutions and fonts, in exact arithmetic",
  "All expressions, nesting depths and fonts.",
  ["mtex/parser.go:Parse","mtex/parser.go:handleFrac","mtex/parser.go:handleBinom","tex/box.go:Ship.hlistOut","tex/box.go:Ship.vlistOut"])
p("The symbol table generator writes what it was told, reproducibly",
  "gen-symbols asks Python once for the twelve sets of the package, by name. If the Python process it starts reports a map of sets, gen-symbols writes a symbols_gen.go that declares exactly these sets, each with its elements in the reported order (read back through Go's string escapes), sorted by name, and exits with status 0. The text does not depend on the iteration order of Go's maps. If Python fails or its output cannot be decoded, the file is left empty, so the tables are lost, and the program still exits with status 0; only if the file cannot be created does it keep its contents.",
  "all maps reported by Python (ASCII symbols), all map iteration orders, all failures of the process, of creating and of closing the file",
  "All maps and iteration orders.",
  ["mtex/symbols/gen-symbols.go:main","mtex/symbols/gen-symbols.go:gen"])
p("Metrics in design units: extents are right, advances only at 2048 units per em",
  "For every glyph the TrueType backend draws, if the font library scales the glyph's design linearly (rounding to 1/64 pixel): XMin, XMax, YMin, YMax (minus the glyph's offset, zero except for Cmex10) are the designed ink extents times size over units-per-em, up to 1/1536 of the size, and Width and Height their differences; but Advance is the designed advance times size over 2048, whatever the font's units per em, hence correct iff the font has 2048 units per em (Latin Modern has 1000).",
  "all fonts, glyphs, sizes and resolutions, after all histories of calls, in exact arithmetic",
  "All fonts and histories.",
  ["font/ttf/ttf.go:Backend.getInfo","font/ttf/ttf.go:Backend.Metrics","font/ttf/ttf.go:Backend.RenderGlyph"])
p("Flat formulas in float64",
  "For an expression without \\frac, \\dfrac, \\tfrac, \\binom, \\sqrt and \\overline, in float64: the width of the box mtex.Parse returns is the sum of the widths of all letters and gaps in it, however nested, and drawing it makes one call per letter, in order, on one baseline, at the origin plus the sum of all widths before the letter, each up to n * 2^-52 times the sum of the absolute values (n the number of parts); its height and depth are exactly those of the highest and deepest letter (at least 0).",
  "all such expressions, font backends, sizes, resolutions and origins, when the results are finite, as they are if the widths are finite and together at most 2^1022",
  "All expressions and numbers.",
  ["mtex/parser.go:Parse","tex/box.go:HList.HPack","tex/box.go:HList.kern","tex/box.go:Ship.hlistOut"])
p("The lexical grammar",
  "ParseExpr reads a source as the tokens of a fixed lexical grammar, at their byte offsets: words are maximal runs of letters; numbers have a base prefix 0x, 0b or 0o, digits and underscores, a fraction and an exponent, each as long as possible; quoted strings, macros (backslash, blanks and one item), comments (to the end of the line outside quotes), spaces, symbols and brackets; TAB, LF and CR separate tokens and a leading byte-order mark is dropped. Every source has exactly one such reading or is refused because of one character no token begins with; ParseExpr returns a tree only in the first case, and when it panics about an unhandled character it is that one.",
  "all byte strings and all sets of non-ASCII letters",
  "All inputs.",
  ["scanner.go:newScanner","scanner.go:texScanner.scan","scanner.go:texScanner.scanMacro","scanner.go:texScanner.scanComment","parser.go:ParseExpr"])
p("Trees and drawings are no larger than their source",
  "If ParseExpr accepts a source of n bytes, the tree has at most n nodes (macro names included) and is nested at most n deep; if mtex.Parse typesets it, drawing the box makes at most n calls to the renderer. So time and memory cannot blow up, however the source is written.",
  "all sources ParseExpr and mtex.Parse accept, all font backends, sizes, resolutions and number types",
  "All inputs.",
  ["parser.go:ParseExpr","mtex/parser.go:Parse","tex/box.go:Ship.hlistOut","tex/box.go:Ship.vlistOut"])
p("When packing warns",
  "HPack and VPack write at most one log line. They write one exactly when the list is not empty, the requested size differs from the natural size and the children have no glue of order fil, fill or filll (in total) in the direction needed; it starts with \"overfull HList\" (or VList) when the list would have to stretch and \"underfull\" when it would have to shrink. Finite glue does not silence it. A packing that panics logs nothing. HListOf and VListOf (so HCentered and VCentered) never warn unless sizes overflow float64; an HCentered box repacked to another width, as fractions do, never warns; a bar, fill glue and a body, as in \\sqrt and \\overline, warn only if packed below their natural height.",
  "all lists, all requested sizes, float64 and exact arithmetic", "whether a line is written depends on sums of arbitrary elasticities and sizes and on rounding: (0+x)-x must be zero for every float x",
  ["tex/box.go:setGlue", "tex/box.go:determineOrder", "tex/box.go:HPack", "tex/box.go:VPack", "tex/box.go:HListOf", "tex/box.go:HCentered"])
p("Sizes of formulas in float64",
  "For an expression of n bytes without \\binom and \\sqrt, in float64: width, height and depth of the box mtex.Parse returns are finite and differ by at most B * (n+2)^2 / 2^40 from the sizes that follow exactly from the expression and the measurements of its glyphs, which themselves may be rounded (to B / 2^46, advances to (1 + advance) / 2^50) (the layout rules of C64: kerned rows, spaces, fractions with their numerators shrunk and stacked around the axis, bars), where B >= 1 bounds every measurement, size times resolution and every \\hspace. So rounding never accumulates visibly, however deep the formula is nested: below 1/1000 pixel for 1000 bytes and B = 1000; and no dimension of the box is larger than 65 B (n+2).",
  "all such expressions of less than 2^19 bytes, all font backends whose measurements are at most B <= 2^900, all sizes and resolutions",
  "All expressions and numbers; each packing step rounds.",
  ["mtex/parser.go:Parse","mtex/parser.go:handleFrac","tex/box.go:HList.HPack","tex/box.go:VList.VPack","tex/box.go:HList.Shrink"])
p("Sizes of formulas typeset with TrueType fonts, in float64",
  "A formula of n bytes without \\binom and \\sqrt, typeset in float64 with TrueType fonts, on a backend that has only answered calls in math mode for the same size and resolution: its box has, up to B * (n+2)^2 / 2^40, the size that follows exactly from the formula and the integers in the font files (glyph advances and bounds scaled to the size, kerning, lines of size/16). The picture mtex.Render asks its renderer for has that width over 72, and a height that is a whole number of points over 72: the height of the formula plus its depth below the baseline, rounded up, the number before rounding up being correct to 3 times that error. With the PNG renderer at D dots per inch, the image has the width of the formula and that height times D/72, rounded up to whole pixels, up to 2 D times that error.",
  "all fonts with 32-bit numbers whose scaled measurements are at most B (1 <= B <= 2^900), all such formulas of less than 2^19 bytes, sizes, resolutions, renderers and call histories of one size",
  "All fonts, formulas and sizes; the scaling and every packing step round.",
  ["mtex/parser.go:Parse","mtex/render.go:Render","font/ttf/ttf.go:Backend.Metrics","font/ttf/ttf.go:Backend.Kern","font/ttf/ttf.go:Backend.UnderlineThickness"])
p("The CI test runner is honest",
  "ci/run-tests.go exits with status 0 only if go list succeeded and go test was run exactly once, in order, for every line go list printed that does not contain \"vendor\", and every one of these commands succeeded; with -coverpkg, coverage.txt then is the concatenation of the profiles the commands wrote. Any failure (of go list, of a test, of creating, reading, writing or closing the coverage files) gives status 1, and no package after the failing one is tested. If nothing fails the status is 0. At every moment, also when it is killed, coverage.txt holds whole profiles of the packages that passed, in order (a failed write may leave the beginning of one more). The options given to go test are exactly those the flags ask for. One exception is hidden: a line of 64 KiB or more ends the package list, and the rest is not tested and nobody is told.",
  "all flags, outputs of go list, results of the commands, input/output failures and crash points",
  "All histories of commands and failures; the runner itself has no tests.",
  ["ci/run-tests.go:main","ci/run-tests.go:pkgList"])
p("Parsed boxes share nothing",
  "Boxes are pointers, and Shrink, Grow, HPack, VPack, SetShift and drawing change them in place (Ship overwrites the widths of lists inside vertical lists). Every box mtex.Parse returns is made of nodes it allocated itself, none of which occurs in it twice, and Parse changes no node that existed before. So after any sequence of Parse, Shrink, Grow, HPack, VPack and Ship calls on any number of parsed boxes, each box is what the calls on it alone make of it (the font backend answering as it does in that order), every drawing makes the same calls, and a panic happens exactly when it would there: no call on one box can be seen in another. HPack and VPack write only the list itself, the others only nodes of the box. This is not so for boxes that share a node: Shrink scales a node once for every place where it occurs.",
  "all expressions, fonts, sizes, font backends, number types and histories of calls; all heaps",
  "All histories; aliasing needs every pair of nodes to be compared.",
  ["mtex/parser.go:Parse","mtex/parser.go:handleFrac","tex/box.go:HListOf","tex/box.go:HCentered","tex/box.go:List.Shrink","tex/box.go:HList.HPack","tex/box.go:VList.VPack","tex/box.go:Ship.vlistOut","tex/box.go:Ship.Call"])
p("Goroutines do not disturb each other",
  "Any number of goroutines may call mtex.Render at the same time (each with its own renderer, all with the same fonts), or Parse and then Shrink, Grow, HPack, VPack and Ship on boxes they parsed themselves, each with its own font backend. However the scheduler interleaves their single accesses to memory: a goroutine that ends has made the same calls on its backend and renderer, drawn the same and returned the same value or panicked with the same message as it would have alone, and its boxes are the trees it would have made alone; no node is ever accessed by two goroutines, so there is no data race on nodes, none that existed before is accessed at all, and the boxes of two goroutines have no node in common; and a goroutine that gets the processor again and again ends, whatever the others do. This is not so for a box two goroutines share: two Shrinks of it race and one may be lost.",
  "all sets of goroutines, sequences of calls, expressions, fonts, font backends, number types and schedules (finite and endless); all memories to start with",
  "All schedules: an interleaving of single accesses cannot be chosen or enumerated by a test.",
  ["mtex/render.go:Render","mtex/parser.go:Parse","tex/box.go:List.Shrink","tex/box.go:HList.HPack","tex/box.go:VList.VPack","tex/box.go:Ship.Call","tex/box.go:Ship.vlistOut"])
p("Typesetting writes nothing to the log",
  "setGlue writes \"underfull\" or \"overfull\" to the standard logger when a list is packed to a size its glue cannot give (C90). mtex.Parse never makes it do so for an expression without \\sqrt, also when it panics: with a font backend whose numbers are finite (float64: of magnitude at most 2^450, and at most 2^40 bytes of input), whose line thickness depends on font and resolution only and is not negative, a size and a resolution that are not negative, no line is written; no rounding error is ever reported. In exact arithmetic the same holds with \\sqrt, if the backend's radical sign has a height proportional to its font size; if the sign does not grow, a line is written. With the TrueType backend (fonts with 32-bit numbers, font size and resolution between 0 and 2^200, whatever was asked of the backend before), and so in mtex.Render, nothing is written for an expression without \\sqrt and \\binom. Counting the lines does not change what Parse does.",
  "all expressions, font backends, sizes, resolutions and lengths in \\hspace, float64 and exact arithmetic",
  "All expressions and numbers: one rounding error in the wrong place writes a line.",
  ["mtex/parser.go:Parse","mtex/parser.go:handleSqrt","mtex/parser.go:handleOverline","mtex/parser.go:handleFrac","mtex/render.go:Render","font/ttf/ttf.go:getInfo","tex/box.go:setGlue"])
p("Pictures in float64",
  "Shipping the box of an expression of n bytes without \\binom and \\sqrt, with fractions and overlines nested d deep, at any position, in float64: it always works, and with measurements, position and font size of magnitude at most B it makes exactly the calls of the picture that follows from the expression and the measurements (C76): the same glyphs in the same fonts and lines, in the same order, every coordinate and font size being off by at most e = ((n+2)(d+1))^2 * B / 2^31. Only numerators and denominators, which are centred by glue in whole pixels, may each be half a pixel further left or right, overlined expressions half a pixel further up or down, and a line at most e thick may be missing. Nothing is drawn more than e above the top of the box or below its bottom, if there is no overline; every overline may add half a pixel and e. The same holds for formulas typeset with TrueType fonts, after any calls for the same size; and mtex.Render, if it gets as far as calling its renderer, passes it this drawing with the upper left corner at (0, 0), every glyph as a fresh font backend draws it.",
  "all expressions with (n+2)(d+1) <= 2^15, font backends, positions and sizes within B (1 <= B <= 2^900); TrueType: all fonts with 32-bit numbers",
  "All expressions, fonts, positions and numbers; every packing and drawing step rounds, and glue is rounded to pixels again.",
  ["mtex/parser.go:Parse","mtex/parser.go:handleFrac","mtex/parser.go:handleOverline","tex/box.go:HCentered","tex/box.go:Ship.Call","tex/box.go:Ship.hlistOut","tex/box.go:Ship.vlistOut","tex/box.go:HList.Shrink","mtex/render.go:Render"])
json_lines="\n".join(json.dumps(x,ensure_ascii=False) for x in P)+"\n"
open("/verif/properties.jsonl","w").write(json_lines)
print(len(P))
