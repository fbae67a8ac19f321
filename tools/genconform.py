#!/usr/bin/env python3
"""Translate the table-driven tests of /repo into Coq Examples about the model:
theories/ConformAst.v (parser_test.go, ast_test.go, walk_test.go),
theories/ConformBox.v (tex/box_test.go) and theories/ConformMtex.v
(mtex/parser_test.go), with the entries of the fake backend they need."""
import re,os
REPO='/repo'; OUT=os.path.join(os.path.dirname(__file__),'..','rocq','theories')
TOK=re.compile(r'\s+|//[^\n]*|(?P<s>"(?:\\.|[^"\\])*"|`[^`]*`)|(?P<n>[0-9]+(?:\.[0-9]*)?)|(?P<i>[A-Za-z_][\w.]*(?:\[\])?)|(?P<p>\[\]|[{}(),:&+\-;=])')
def tokens(s):
    out=[];i=0
    while i<len(s):
        m=TOK.match(s,i)
        if not m: raise Exception(s[i:i+40])
        i=m.end()
        for k in 'snip':
            if m.group(k) is not None: out.append((k,m.group(k)))
    return out
def unq(t):
    if t[0]=='`': return t[1:-1]
    return bytes(t[1:-1],'utf8').decode('unicode_escape').encode('latin1').decode('utf8') if '\\' in t else t[1:-1]
class P:
    def __init__(s,toks): s.t=toks; s.i=0
    def peek(s,k=0): return s.t[s.i+k][1] if s.i+k<len(s.t) else None
    def eat(s,x=None):
        k,v=s.t[s.i]; assert x is None or v==x,(x,s.t[s.i-3:s.i+6]); s.i+=1; return k,v
    def val(s):
        k,v=s.t[s.i]
        if v=='&': s.eat(); return s.val()
        if v in '+-' and k=='p': s.eat(); x=s.val(); return -x if v=='-' else x
        if k=='s': s.eat(); return ('str',unq(v))
        if k=='n': s.eat(); return float(v)
        if v=='{': return s.comp('')
        if v=='[]':
            s.eat(); s.eat(); return s.comp('slice')
        s.eat(); name=v
        if s.peek()=='{': return s.comp(name)
        if s.peek()=='(':
            s.eat(); a=[]
            while s.peek()!=')':
                a.append(s.val())
                if s.peek()==',': s.eat()
            s.eat(); return ('call',name,a)
        return ('id',name)
    def comp(s,name):
        s.eat('{'); kv={}; l=[]
        while s.peek()!='}':
            if s.t[s.i][0]=='i' and s.peek(1)==':':
                k=s.eat()[1]; s.eat(':'); kv[k]=s.val()
            else: l.append(s.val())
            if s.peek()==',': s.eat()
        s.eat('}'); return ('comp',name,kv,l)
def table(path,func,n=0):
    src=open(f'{REPO}/{path}').read()
    src=src[src.index('func '+func):]
    a=src.index('[]struct'); a=src.index('}{',a)+1
    p=P(tokens(src[a:src.index('t.Run',a)].rsplit('{',1)[0]))
    return p.comp('')[3]
def S(v): return '"'+v.replace('"','""')+'"'
def F(x):
    if isinstance(x,tuple) and x[1]=='math.Inf': return 'infinity'
    h=float(x).hex(); h=re.sub(r'\.?0*p','p',h) if '.' in h else h; return '('+h+')%float' if h[0]=='-' else h+'%float'
def node(v):
    if v==('id','nil'): return 'NNil'
    _,name,kv,l=v; name=name.replace('ast.','')
    pos=lambda k: str(int(kv.get(k,0)))
    st=lambda k: S(kv[k][1]) if k in kv else '""'
    def lst(x):
        if x is None or x==('id','nil'): return '[]'
        return '['+'; '.join(map(node,x[3]))+']'
    if name=='List': return 'NList ['+'; '.join(map(node,l))+']'
    if name=='Macro':
        i=kv['Name'][2]; return f'NMacro (Some ({int(i.get("NamePos",0))}, {S(i["Name"][1])})) {lst(kv.get("Args"))}'
    if name=='Ident': return f'NIdent {pos("NamePos")} {st("Name")}'
    if name=='Arg': return f'NArg {pos("Lbrace")} {lst(kv.get("List"))} {pos("Rbrace")}'
    if name=='OptArg': return f'NOptArg {pos("Lbrack")} {lst(kv.get("List"))} {pos("Rbrack")}'
    if name=='MathExpr': return f'NMath {st("Delim")} {pos("Left")} {lst(kv.get("List"))} {pos("Right")}'
    if name=='Word': return f'NWord {pos("WordPos")} {st("Text")}'
    if name=='Literal': return f'NLit {pos("LitPos")} {st("Text")}'
    if name=='Symbol': return f'NSym {pos("SymPos")} {st("Text")}'
    if name=='Sub': return f'NSub {pos("UnderPos")} ({node(kv["Node"])})'
    if name=='Sup': return f'NSup {pos("HatPos")} ({node(kv["Node"])})'
    raise Exception(name)
HDR='(** Generated by tools/genconform.py from the tests of /repo: the model gives the\n    results the tests of the code expect. %s *)\n'
def gen_ast():
    o=HDR%'parser_test.go, ast/ast_test.go, ast/walk_test.go'
    o+='''From Coq Require Import ZArith String Ascii List Bool.
From Verif Require Import Utf8 Token Ast Parser Quote.
Import ListNotations.
Local Open Scope string_scope.
Local Open Scope list_scope.
Local Open Scope Z_scope.

(** No letters above U+007F occur. *)
Definition parsed (x : string) : option node := match parse_expr (fun _ => false) x with Ok l => Some (NList l) | _ => None end.
Definition printed (n : option node) : option string := match n with Some n => print go_quote n | None => None end.
'''
    for k,tc in enumerate(table('parser_test.go','TestParser')):
        kv=tc[2]; o+=f'\n(** parser_test.go TestParser, case {k} *)\nExample parser_{k} : printed (parsed {S(kv["input"][1])}) =\n  printed (Some ({node(kv["want"])})).\nProof. vm_compute. reflexivity. Qed.\n'
    for k,tc in enumerate(table('parser_test.go','TestTokenPos')):
        kv=tc[2]; o+=f'\n(** parser_test.go TestTokenPos, case {k} *)\nExample token_pos_{k} : parsed {S(kv["input"][1])} =\n  Some ({node(kv["want"])}).\nProof. vm_compute. reflexivity. Qed.\n'
    for k,tc in enumerate(table('ast/ast_test.go','TestPrint')):
        kv=tc[2]; o+=f'\n(** ast/ast_test.go TestPrint, case {k} *)\nExample print_{k} : print go_quote ({node(kv["node"])}) = Some {S(kv["want"][1])}.\nProof. vm_compute. reflexivity. Qed.\n'
        if kv['node']!=('id','nil') and kv['node'][1]!='List':
            o+=f'Example print_pos_{k} : node_pos ({node(kv["node"])}) = Some {int(kv.get("pos",0))}.\nProof. reflexivity. Qed.\n'
    o+='''
(** The visitor of walk_test.go:TestWalk writes the type of each node. *)
Definition type_name (n : node) : string :=
  match n with
  | NNil => "<nil>" | NList _ => "ast.List" | NMacro _ _ => "*ast.Macro" | NArg _ _ _ => "*ast.Arg"
  | NOptArg _ _ _ => "*ast.OptArg" | NIdent _ _ => "*ast.Ident" | NMath _ _ _ _ => "*ast.MathExpr"
  | NWord _ _ => "*ast.Word" | NLit _ _ => "*ast.Literal" | NSym _ _ => "*ast.Symbol"
  | NSub _ _ => "*ast.Sub" | NSup _ _ => "*ast.Sup"
  end.
Definition sprinter (v : unit) (n : node) (s : list string) : option (option unit * list string) :=
  Some (Some v, s ++ [type_name n]).
Definition walked (n : node) : option string :=
  option_map (String.concat " ") (walk unit (list string) sprinter tt n []).
'''
    for k,tc in enumerate(table('ast/walk_test.go','TestWalk')):
        kv=tc[2]; o+=f'\n(** ast/walk_test.go TestWalk and TestInspect, case {k} *)\nExample walk_{k} : walked ({node(kv["node"])}) = Some {S(kv["want"][1])}.\nProof. vm_compute. reflexivity. Qed.\n'
    open(OUT+'/ConformAst.v','w').write(o)
MET=re.compile(r'fontKey\{symbol: ("(?:\\.|[^"\\])*"|`[^`]*`), math: (\w+), font: font\.Font\{Name: "(\w+)", Size: ([\d.]+), Type: "(\w+)"\}\}:\s*font\.Metrics\{Advance: (\S+), Height: (\S+), Width: (\S+), XMin: (\S+), XMax: (\S+), YMin: (\S+), YMax: (\S+), Iceberg: (\S+), Slanted: (\w+)\}')
def backend(syms,keep):
    rows=[]
    for m in MET.finditer(open(f'{REPO}/internal/fakebackend/fakebackend_fonts_gen.go').read()):
        g=m.groups(); s=unq(g[0])
        if s in syms and keep(g[2],float(g[3]),g[4],g[1]=='true',s):
            rows.append(f'  ({S(s)}, {g[1]}, ({S(g[2])}, {F(float(g[3]))}, {S(g[4])}), mk_metrics {" ".join(F(float(x)) for x in g[5:13])} {g[13]})')
    ks=[]
    for m in re.finditer(r'kernKey\{font: font\.Font\{Name: "(\w+)", Size: ([\d.]+), Type: "(\w+)"\}, s1: ("(?:\\.|[^"\\])*"|`[^`]*`), s2: ("(?:\\.|[^"\\])*"|`[^`]*`)\}:\s*(\S+),',open(f'{REPO}/internal/fakebackend/fakebackend_kerns_gen.go').read()):
        if float(m.group(6))!=0: ks.append(m.groups())
    xs=re.findall(r'xhKey\{"(\w+)", ([\d.]+), ([\d.]+)\}:\s*([\d.]+),',open(f'{REPO}/internal/fakebackend/fakebackend_xheight_gen.go').read())
    o='\n(** internal/fakebackend/fakebackend_fonts_gen.go: the entries used here *)\nDefinition fonts_db : list (string * bool * (string * float * string) * @metrics float64) := [\n'+';\n'.join(rows)+'].\n'
    o+='(** fakebackend_xheight_gen.go *)\nDefinition xhs_db : list (string * float * float * float) := [\n'+';\n'.join(f'  ({S(a)}, {F(b)}, {F(c)}, {F(d)})' for a,b,c,d in xs)+'].\n'
    o+='(** fakebackend_kerns_gen.go: the nonzero entries (an absent one counts as 0) *)\nDefinition kerns_db : list ((string * float * string) * string * string * float) := [\n'+';\n'.join(f'  (({S(k[0])}, {F(k[1])}, {S(k[2])}), {S(unq(k[3]))}, {S(unq(k[4]))}, {F(k[5])})' for k in ks)+'].\n'
    o+='''Definition same_font (k : string * float * string) (f : @font float64) : bool :=
  let '(n, s, t) := k in String.eqb n (f_name f) && PrimFloat.eqb s (f_size f) && String.eqb t (f_type f).
(** internal/fakebackend/fakebackend.go:41-99 *)
Definition fake : @backend float64 unit := {|
  be_kern := fun f1 s1 f2 s2 dpi =>
    if String.eqb (f_name f1) (f_name f2) && PrimFloat.eqb (f_size f1) (f_size f2) && String.eqb (f_type f1) (f_type f2)
    then mret 0%float
    else mret (match List.find (fun e => let '(k, a, b, _) := e in same_font k f1 && String.eqb a s1 && String.eqb b s2) kerns_db with
               | Some (_, _, _, k) => k | None => 0%float end);
  be_metrics := fun s f dpi m =>
    if PrimFloat.eqb dpi 72%float then
      match List.find (fun e => let '(a, b, k, _) := e in String.eqb a s && Bool.eqb b m && same_font k f) fonts_db with
      | Some (_, _, _, x) => mret x | None => mpanic "no pre-generated metrics" end
    else mpanic "no pre-generated metrics";
  be_xheight := fun f dpi =>
    match List.find (fun e => let '(n, s, d, _) := e in String.eqb n (f_name f) && PrimFloat.eqb s (f_size f) && PrimFloat.eqb d dpi) xhs_db with
    | Some (_, _, _, x) => mret x | None => mpanic "no pre-generated xheight" end;
  be_underline := fun f dpi => mret ((0x1p-4 * f_size f * dpi) / 72)%float |}.
'''
    return o
IMP='''From Coq Require Import ZArith String Ascii List Bool Floats.
From Verif Require Import Utf8 Token Ast Parser Symbols Arith Box Ship Mtex MtexFacts.
Import ListNotations.
Local Open Scope string_scope.
Local Open Scope list_scope.
Local Open Scope Z_scope.
Set Warnings "-inexact-float".
'''
def tnode(v):
    if v==('id','nil'): return '(mret [])'
    if v[0]=='comp': return 'seq ['+'; '.join(map(tnode,v[3]))+']'
    _,f,a=v
    lst=lambda x: '('+tnode(x)+')' if x[0]=='comp' else tnode(x)
    b=lambda x: x[1]
    if f=='HBox': return f'mret (hbox {F(a[0])})'
    if f=='VBox': return f'mret (vbox {F(a[0])} {F(a[1])})'
    if f=='NewKern': return f'mret (new_kern (A:=float64) {F(a[0])})'
    if f=='NewGlue': return f'glue_named {S(a[0][1])}'
    if f=='HListOf': return f'(l <- {lst(a[0])} ;; hlist_of fake l {b(a[1])})'
    if f=='VListOf': return f'(l <- {lst(a[0])} ;; vlist_of l)'
    if f=='HCentered': return f'(l <- {lst(a[0])} ;; hcentered fake l)'
    if f=='VCentered': return f'(l <- {lst(a[0])} ;; vcentered l)'
    if f=='NewChar': return f'(c <- new_char fake {S(a[0][1])} st12 {b(a[2])} ;; mret (TChar c))'
    if f=='NewAccent': return f'(c <- new_accent fake {S(a[0][1])} st12 {b(a[2])} ;; mret (TAccent c))'
    if f=='HRule': return f'hrule fake st12 {F(a[1])}'
    if f=='VRule': return f'vrule fake st12'
    if f=='AutoHeightChar': return f'auto_height_char fake {S(a[0][1])} {F(a[1])} {F(a[2])} st12 {F(a[4])}'
    raise Exception(f)
def chars_in(v,acc):
    if isinstance(v,tuple):
        if v[0]=='call' and v[1] in('NewChar','NewAccent','AutoHeightChar'): acc.add(v[2][0][1])
        for x in v: chars_in(x,acc)
    elif isinstance(v,list):
        for x in v: chars_in(x,acc)
    elif isinstance(v,dict):
        for x in v.values(): chars_in(x,acc)
def gen_box():
    o=HDR%'tex/box_test.go'+IMP
    tb=table('tex/box_test.go','TestBox'); ts=table('tex/box_test.go','TestShip')
    syms=set(); chars_in(tb,syms); chars_in(ts,syms)
    o+=backend(syms,lambda n,s,t,m,y: n=='default' and t=='rm' and (s==12 or (y=='(' and s not in(10.0,12.0))))
    o+='''
Definition st12 : @state float64 := mk_state (mk_font "default" "rm" 12%float) 72%float.
Definition seq (l : list (M unit (@tnode float64))) : M unit (list tnode) := mmap (fun m => m) l.
Definition glue_named (s : string) : M unit (@tnode float64) :=
  match new_glue s with Some g => mret (TGlue g) | None => mpanic "glue" end.
Local Open Scope float_scope.
(** Width, height and depth equal the expected ones (box_test.go cmpEq). *)
Definition dims_are (m : M unit (@tnode float64)) (w h d : float) : bool :=
  match m tt with LOk (t, _) => PrimFloat.eqb (t_width t) w && PrimFloat.eqb (t_height t) h && PrimFloat.eqb (t_depth t) d | LPanic _ => false end.
Definition ships_to (m : M unit (@tnode float64)) (s : Z) (v h : float) : bool :=
  match m tt with
  | LOk (t, _) =>
    match ship_call 0 0 t with
    | LOk (_, st) => Z.eqb (s_s st) s && PrimFloat.eqb (s_v st) v && PrimFloat.eqb (s_h st) h
    | LPanic _ => false
    end
  | LPanic _ => false
  end.
'''
    for k,tc in enumerate(tb):
        kv=tc[2]; o+=f'\n(** tex/box_test.go TestBox, case {k} *)\nExample box_{k} : dims_are ({tnode(kv["node"])})\n  {F(kv.get("w",0))} {F(kv.get("h",0))} {F(kv.get("d",0))} = true.\nProof. vm_compute. reflexivity. Qed.\n'
    for k,tc in enumerate(ts):
        kv=tc[2]; o+=f'\n(** tex/box_test.go TestShip, case {k} *)\nExample ship_{k} : ships_to ({tnode(kv["node"])})\n  {int(kv.get("s",0))} {F(kv.get("v",0))} {F(kv.get("h",0))} = true.\nProof. vm_compute. reflexivity. Qed.\n'
    open(OUT+'/ConformBox.v','w').write(o)
def gen_mtex():
    o=HDR%'mtex/parser_test.go'+IMP
    tb=table('mtex/parser_test.go','TestParse')
    syms=set('hello is12.xm=cosyab3()')|{'\\sigma','\\rightarrow','\\infty','\\theta','\\pi','\\__sqrt__'}
    o+=backend(syms,lambda n,s,t,m,y: t in('rm','it') and n in('default','it') and s!=12 and (s==10 or y in('(',')','\\__sqrt__')))
    o+='''
Local Open Scope float_scope.
(** strconv.ParseFloat on the literals that occur *)
Definition parse_float (s : string) : option float := if String.eqb s "2" then Some 2 else None.
Definition size_is (x : string) (w h d : float) : bool :=
  match mtex_parse (A:=float64) (fun _ => false) id_range fake parse_float x 10 72 tt with
  | Some (LOk ((t, None), _)) => PrimFloat.eqb (t_width t) w && PrimFloat.eqb (t_height t) h && PrimFloat.eqb (t_depth t) d
  | _ => false
  end.
'''
    for k,tc in enumerate(tb):
        kv=tc[2]; o+=f'\n(** mtex/parser_test.go TestParse, case {k} *)\nExample mtex_{k} : size_is {S(kv["expr"][1])} {F(kv.get("w",0))} {F(kv.get("h",0))} {F(kv.get("d",0))} = true.\nProof. vm_compute. reflexivity. Qed.\n'
    open(OUT+'/ConformMtex.v','w').write(o)
def gen_sym():
    o=HDR%'internal/tex2unicode/utf8_test.go, mtex/symbols/symbols_test.go, token/token_test.go, tex/tex_test.go'
    o+="""From Coq Require Import ZArith String Ascii List Bool Floats.
From Verif Require Import Utf8 Token Parser Symbols Arith Box MtexFacts.
Import ListNotations.
Local Open Scope string_scope.
Local Open Scope list_scope.
Local Open Scope Z_scope.

"""
    src=open(f'{REPO}/internal/tex2unicode/utf8_test.go').read()
    rows=[]
    for m in re.finditer(r"\{v: `([^`]*)`, want: ('(.)'|\d+)(, math: true)?\}",src):
        r=ord(m.group(3)) if m.group(3) else int(m.group(2))
        rows.append(f'  ({S(m.group(1))}, {r}, {"true" if m.group(4) else "false"})')
    o+='(** utf8_test.go TestIndex *)\nExample index_cases : forallb (fun c => match c with (v, r, m) => match index v m with Some x => x =? r | None => false end end) [\n'+';\n'.join(rows)+'] = true.\nProof. vm_compute. reflexivity. Qed.\n'
    o+='(** utf8_test.go TestHasSymbol *)\nExample has_symbol_cases : (has_symbol "alpha", has_symbol "\\alpha") = (true, false).\nProof. vm_compute. reflexivity. Qed.\n'
    src=open(f'{REPO}/mtex/symbols/symbols_test.go').read()
    rows=[f'({S(a)}, {b})' for a,b in re.findall(r'\{`([^`]*)`, (true|false)\}',src)]
    o+='(** symbols_test.go TestIsSpaced *)\nExample is_spaced_cases : forallb (fun c => Bool.eqb (is_spaced id_range (fst c)) (snd c)) [\n  '+'; '.join(rows)+'] = true.\nProof. vm_compute. reflexivity. Qed.\n'
    o+='(** token_test.go TestKind *)\nExample kind_case : kind_string (kind_int KMacro) = Some "Macro".\nProof. vm_compute. reflexivity. Qed.\n'
    src=open(f'{REPO}/tex/tex_test.go').read()
    rows=['(['+'; '.join(F(float(x)) for x in a.split(','))+f'], {b}%nat)' for a,b in re.findall(r'totals: \[\]float64\{([^}]*)\},\s*want:\s*(\d+)',src)]
    o+='(** tex_test.go TestDetermineOrder *)\nExample order_cases : forallb (fun c => Nat.eqb (determine_order (A:=float64) (fst c)) (snd c)) [\n  '+'; '.join(rows)+'] = true.\nProof. vm_compute. reflexivity. Qed.\n'
    open(OUT+'/ConformSym.v','w').write(o)
def gen_gen():
    o=HDR%'mtex/symbols/symbols_gen.go (written by gen-symbols.go)'
    o+="""From Coq Require Import ZArith String Ascii List Bool.
From Verif Require Import Utf8 GenSyms PropGen.
Import ListNotations.
Local Open Scope string_scope.
Local Open Scope list_scope.

(** The lines of symbols_gen.go; a leading ~ stands for a tab. *)
Fixpoint tabs (s : string) : string :=
  match s with String "~" s' => String (ascii_of_nat 9) (tabs s') | _ => s end.
Definition symbols_gen_go : list string := map tabs [
"""
    ls=open(f'{REPO}/mtex/symbols/symbols_gen.go').read().split('\n')
    assert not any('~' in l for l in ls)
    rows=[]
    for l in ls:
        k=len(l)-len(l.lstrip('\t')); rows.append('  '+S('~'*k+l[k:]))
    o+=';\n'.join(rows)+'].\nExample symbols_gen_text : lines (file_text (map fst tables) tables) = symbols_gen_go.\nProof. vm_compute. reflexivity. Qed.\n'
    open(OUT+'/ConformGen.v','w').write(o)
gen_ast(); gen_box(); gen_mtex(); gen_sym(); gen_gen()
