#!/usr/bin/env python3
"""Generates rocq/theories/{SymTable,MacroTable,SetTable}.v from the Go tables in /repo.
Only literal tables are transcribed; the logic is hand written."""
import re
R='/repo/'; O='/verif/rocq/theories/'
def cs(b):  # coq string literal
    assert all(0x20<=ord(c)<0x7f for c in b), b
    return '"'+b.replace('"','""')+'"'
def gostr(t):
    if t[0]=='`': return t[1:-1]
    s=t[1:-1]; o='';i=0
    while i<len(s):
        if s[i]=='\\':
            assert s[i+1] in '\\"', s
            o+=s[i+1]; i+=2
        else: o+=s[i]; i+=1
    return o
HDR='(* GENERATED by tools/gentables.py from the Go literal tables; do not edit. *)\nFrom Coq Require Import ZArith String List.\nImport ListNotations.\nLocal Open Scope string_scope.\nLocal Open Scope Z_scope.\n\n'
STR=r'(`[^`]*`|"(?:[^"\\]|\\.)*")'
# --- tex2unicode
L=open(R+'internal/tex2unicode/utf8.go').read().split('\n')
start=next(i for i,l in enumerate(L) if 'tex2uni = map' in l)
rows=[];last=start
for i in range(start+1,len(L)):
    m=re.match(r'\s*'+STR+r':\s*(\d+|0x[0-9a-fA-F]+),\s*$',L[i])
    if m: rows.append((gostr(m.group(1)),int(m.group(2),0))); last=i
    elif L[i].strip()=='}': break
    else: raise Exception(L[i])
assert len(set(k for k,_ in rows))==len(rows)
with open(O+'SymTable.v','w') as f:
    f.write(HDR)
    f.write(f'(* internal/tex2unicode/utf8.go:{start+1}-{last+2} var tex2uni *)\nDefinition tex2uni : list (string * Z) := [\n')
    f.write(';\n'.join(f'  ({cs(k)}, {v})' for k,v in rows)+'\n].\n')
print('tex2uni',len(rows))
# --- macros.go
L=open(R+'macros.go').read().split('\n')
start=next(i for i,l in enumerate(L) if 'p.macros = map' in l)
mac=[]
for i in range(start+1,len(L)):
    s=L[i].strip()
    if s.startswith('//') or s=='': continue
    if s=='}': break
    m=re.match(STR+r':\s*(builtinMacro\("([A-Za-z]*)"\)|nil),',s)
    if not m: raise Exception(s)
    mac.append((gostr(m.group(1)), None if m.group(2)=='nil' else m.group(3)))
end=i+1
assert len(set(k for k,_ in mac))==len(mac)
# --- mtex/parser.go / macros.go handler tables
def handlers(path,marker):
    L=open(R+path).read().split('\n')
    st=next(i for i,l in enumerate(L) if marker in l)
    rows=[]
    for i in range(st+1,len(L)):
        s=L[i].strip()
        if s.startswith('//') or s=='': continue
        if s=='}': break
        m=re.match(STR+r':\s*(.+),\s*(//.*)?$',s)
        if not m: raise Exception(s)
        rows.append((gostr(m.group(1)),m.group(2)))
    return st+1,i+1,rows
st,en,hrows=handlers('mtex/macros.go','builtinMacros = map')
assert len(set(k for k,_ in hrows))==len(hrows)
with open(O+'MtexTable.v','w') as f:
    f.write(HDR)
    f.write(f'(* mtex/macros.go:{st}-{en} the keys of builtinMacros (the handlers stored there are never called) *)\nDefinition mtex_macros : list string := [\n')
    f.write(';\n'.join('  '+cs(k) for k,_ in hrows)+'\n].\n')
print('mtex macros',len(hrows))
with open(O+'MacroTable.v','w') as f:
    f.write(HDR)
    f.write(f'(* macros.go:{start+1}-{end} literal of p.macros; None is the nil entry, Some s is builtinMacro(s) *)\nDefinition builtin_macros : list (string * option string) := [\n')
    f.write(';\n'.join(f'  ({cs(k)}, '+('None' if v is None else f'Some {cs(v)}')+')' for k,v in mac)+'\n].\n')
print('macros',len(mac))
# --- symbols sets
txt=open(R+'mtex/symbols/symbols_gen.go').read()
with open(O+'SetTable.v','w') as f:
    f.write(HDR)
    for m in re.finditer(r'(\w+) = NewSet\((.*?)\n\t\)',txt,re.S):
        ks=[gostr(x) for x in re.findall(STR,m.group(2))]
        ln=txt[:m.start()].count('\n')+1; le=txt[:m.end()].count('\n')+1
        f.write(f'(* mtex/symbols/symbols_gen.go:{ln}-{le} *)\nDefinition {m.group(1)}_list : list string := [\n'+';\n'.join('  '+cs(k) for k in ks)+'\n].\n\n')
        print(m.group(1),len(ks))
