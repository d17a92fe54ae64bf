#!/usr/bin/env python3
"""Reads the lexer rules of PS.g4 (as text) and prints rocq/theories/Vocabulary.v: every word of the
lexer together with the token kind it belongs to, the first rule in the order of the grammar counting.
WS, DIFFERENTIAL and VARIABLE have infinitely many words and are left out.
Usage: vocabulary.py /repo/latex2sympy/PS.g4 > /verif/rocq/theories/Vocabulary.v"""
import re, sys
src = open(sys.argv[1]).read()
lines = src.split('\n')
# comments, outside of quotes
def strip_comment(l):
    out, q, i = '', False, 0
    while i < len(l):
        if l[i] == '\\' and q: out += l[i:i+2]; i += 2; continue
        if l[i] == "'": q = not q
        if not q and l.startswith('//', i): break
        out += l[i]; i += 1
    return out
text = '\n'.join(map(strip_comment, lines))
# cut at semicolons outside of quotes
items, cur, q, i = [], '', False, 0
while i < len(text):
    c = text[i]
    if c == '\\' and q: cur += text[i:i+2]; i += 2; continue
    if c == "'": q = not q
    if c == ';' and not q: items.append(cur); cur = ''
    else: cur += c
    i += 1
def lit(s): return re.sub(r'\\(.)', r'\1', s)
token = re.compile(r"""'((?:\\.|[^'\\])*)'|\[((?:\\.|[^\]])*)\](\?)?|([A-Za-z_]+)|(\|)""")
def chars(s):
    out, i = [], 0
    while i < len(s):
        if i + 2 < len(s) and s[i+1] == '-': out += [chr(x) for x in range(ord(s[i]), ord(s[i+2]) + 1)]; i += 3
        else: out.append(s[i]); i += 1
    return out
lex, order, implicit = {}, [], []
for it in items:
    m = re.match(r'\s*(fragment\s+)?([A-Za-z_]+)\s*:(.*)$', it, re.S)
    if not m: continue
    frag, name, body = m.group(1), m.group(2), m.group(3)
    if name[0].islower():
        for x in re.findall(r"'((?:\\.|[^'\\])*)'", body): implicit.append(lit(x))
        continue
    lex[name] = re.sub(r'->\s*skip\s*$', '', body)
    if not frag and name not in ('WS', 'DIFFERENTIAL', 'VARIABLE'): order.append(name)
def words(name):
    alts, seq = [], ['']
    for m in token.finditer(lex[name]):
        s, cs, opt, ref, bar = m.groups()
        if bar: alts += seq; seq = ['']; continue
        nxt = [lit(s)] if s is not None else chars(cs) if cs is not None else words(ref)
        if opt: nxt = [''] + nxt
        seq = [a + b for a in seq for b in nxt]
    return alts + seq
table, seen = [], set()
named = {w: n for n in order for w in words(n)}
special = {'^T': 'T_caretT', '^{T}': 'T_caretBT', '^\\top': 'T_caretTop', '^{\\top}': 'T_caretBTop', "'": 'T_prime'}
for w in implicit:
    if w in named or w in seen: continue
    seen.add(w); table.append((special.get(w) or 'T_' + w[1:], [w]))
for n in order:
    ws = [w for w in words(n) if w not in seen]
    seen.update(ws)
    if ws: table.append(('K_' + n, ws))
q = lambda w: 'u "' + w.replace('"', '""') + '"'
print('''(** The words of the lexer, read off /repo/latex2sympy/PS.g4 lines 7-353 by tools/vocabulary.py.
    WS, DIFFERENTIAL and VARIABLE (lines 7, 160, 303-305) have infinitely many words. *)
From Coq Require Import String List NArith.
From Verif Require Import PyStr Lexer.
Import ListNotations.
Definition vocabulary : list (N * pystr) := flat_map (fun e => map (pair (fst e)) (snd e)) [''')
rows = []
for k, ws in table:
    out, line = [], '  (' + k + ', ['
    for j, w in enumerate(ws):
        piece = q(w) + ('; ' if j + 1 < len(ws) else '')
        if len(line) + len(piece) > 118: out.append(line.rstrip()); line = '    '
        line += piece
    out.append(line + '])'); rows.append('\n'.join(out))
print(';\n'.join(rows) + '].')
