#!/usr/bin/env python3
"""Generates rocq/theories/DefaultSpec.v from packages/mitex/specs/latex/standard.typ
(the definitions passed to process-spec; prelude.typ fixes what each define-* means)."""
import sys
src = open('/repo/packages/mitex/specs/latex/standard.typ').read()
body = src[src.index('process-spec((') + len('process-spec(('):]

def scan(s, i, stop):
    """end index of the element starting at i: first char in stop at depth 0"""
    d = 0
    while i < len(s):
        c = s[i]
        if c == '"':
            i += 1
            while s[i] != '"':
                if s[i] == '\\': i += 1
                i += 1
        elif s.startswith('//', i):
            while s[i] != '\n': i += 1
        elif c == '[' and s[i:i+3] in ('[\\[', '[\\]'):
            i += 3
        elif d == 0 and c in stop:
            return i
        elif c in '([{': d += 1
        elif c in ')]}':
            d -= 1
        i += 1
    raise Exception('eof')

def unstr(s):
    assert s[0] == '"' and s[-1] == '"', s
    out = ''; i = 1
    while i < len(s) - 1:
        if s[i] == '\\':
            i += 1
            # Typst keeps the backslash of an unknown escape
            out += {'\\': '\\', '"': '"', 'n': '\n'}.get(s[i], '\\' + s[i])
        else:
            out += s[i]
        i += 1
    return out

def skip_ws(s, i):
    while True:
        while i < len(s) and s[i] in ' \t\r\n,': i += 1
        if s.startswith('//', i):
            while s[i] != '\n': i += 1
        else:
            return i

def split_args(s):
    res = []; i = 0
    while True:
        i = skip_ws(s, i)
        if i >= len(s): return res
        j = scan(s + ',', i, ',')
        res.append(s[i:j].strip()); i = j + 1

entries = []
i = 0
while True:
    i = skip_ws(body, i)
    if body[i] == ')': break
    j = scan(body, i, ':')
    key = body[i:j].strip()
    key = unstr(key) if key[0] == '"' else key
    i = skip_ws(body, j + 1)
    j = scan(body, i, ',)')
    entries.append((key, body[i:j].strip()))
    i = j

def tx(s):
    if all(32 <= ord(c) < 127 for c in s):
        return '(tx "%s")' % s.replace('"', '""')
    return '[' + '; '.join('%d' % ord(c) for c in s) + ']'

FEAT = {'none': 'FNone', 'is-math': 'FMath', 'is-matrix': 'FMatrix', 'is-cases': 'FCases',
        'is-figure': 'FFigure', 'is-table': 'FTable', 'is-itemize': 'FItemize',
        'is-enumerate': 'FEnumerate'}

def item(v):
    if v == 'sym' or v.startswith('of-sym('): return 'JSymbol'
    if v == 'ignore-sym': return 'JSymAlias []'
    if v == 'cmd1': return 'JCommand1'
    if v == 'cmd2': return 'JCommand2'
    if v == 'matrix-env': return 'JEnvMatrix'
    f, rest = v.split('(', 1)
    assert rest[-1] == ')', v
    args = split_args(rest[:-1])
    pos = []; named = {}
    for a in args:
        k = a.split(':', 1)[0]
        if k in ('alias', 'handle', 'kind', 'sym', 'delim'): named[k] = a.split(':', 1)[1].strip()
        else: pos.append(a)
    alias = lambda a: 'None' if a in (None, 'none') else 'Some ' + tx(unstr(a))
    cmd = lambda n, a: 'JCmd {| cs_args := SRight (PFixed %s); cs_alias := %s |}' % (n, alias(a))
    if f == 'define-sym': return 'JSymAlias ' + tx(unstr(pos[0]))
    if f == 'define-greedy-cmd' or f == 'greedy-handle': return 'JCmdGreedy ' + tx(unstr(pos[0]))
    if f == 'define-infix-cmd': return 'JCmdInfix ' + tx(unstr(pos[0]))
    if f == 'define-glob-cmd': return 'JCmdGlob %s %s' % (tx(unstr(pos[0])), tx(unstr(pos[1])))
    if f == 'define-cmd': return cmd(pos[0], named.get('alias'))
    if f == 'arrow-handle': return cmd('1', None)
    if f == 'limits-handle': return cmd('1', pos[0])
    if f == 'left1-op': return 'JCmd {| cs_args := SLeft1; cs_alias := %s |}' % alias(pos[0])
    if f == 'matrix-handle':
        return 'JEnv {| en_args := PNone; en_feature := FMatrix; en_alias := None |}'
    if f == 'define-env':
        p = 'PNone' if pos[0] == 'none' else '(PFixed %s)' % pos[0]
        return 'JEnv {| en_args := %s; en_feature := %s; en_alias := %s |}' % (
            p, FEAT[unstr(named.get('kind', '"none"'))], alias(named.get('alias')))
    if f == 'define-glob-env':
        return 'JEnvGlob %s %s %s' % (tx(unstr(pos[0])), tx(unstr(named['alias'])),
                                      FEAT[unstr(named.get('kind', '"none"'))])
    raise Exception(v)

# a later entry of the Typst dictionary literal with the same key is a Typst error; keep order
print('(** GENERATED by tools/gen_default_spec.py from')
print('    packages/mitex/specs/latex/standard.typ:95-1186 (and prelude.typ for the meaning')
print('    of the define-* helpers): the items of the standard package. *)')
print('From Verif Require Export Spec.')
print('Local Open Scope N_scope.')
print('Definition standard_package : list (text * json_item) := [')
print(';\n'.join('  (%s, %s)' % (tx(k) if k else '[]', item(v)) for k, v in entries))
print('].')
print('(** lib.rs of mitex-spec-gen:11-16 [DEFAULT_SPEC], generated by build.rs:118-134 *)')
print('Definition default_items : list (text * spec_item) :=')
print('  Eval vm_compute in spec_of_json (merge_packages [standard_package]).')
print('Definition DEFAULT_SPEC : spec := spec_of default_items.')
