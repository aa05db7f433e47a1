#!/usr/bin/env python3
"""Generates rocq/theories/StandardDefs.v from packages/mitex/specs/latex/standard.typ: the
definitions passed to process-spec, with the functions of Prelude.v.  A handler is named by the
line of standard.typ it stands on."""
import re, runpy, io, contextlib
with contextlib.redirect_stdout(io.StringIO()):
    g = runpy.run_path('/verif/tools/gen_default_spec.py')
src, entries, tx, unstr, split_args = g['src'], g['entries'], g['tx'], g['unstr'], g['split_args']
body = src[src.index('process-spec((') + len('process-spec(('):]
base = src[:src.index('process-spec((') + len('process-spec((')].count('\n') + 1
pos_of = 0
out = []
def opt(a): return 'None' if a in (None, 'none') else '(Some %s)' % tx(unstr(a))
def text(a):
    t = tx(unstr(a))
    return t if unstr(a) else '[]'
for key, v in entries:
    at = body.index(v, pos_of); pos_of = at + len(v)
    line = base + body[:at].count('\n')
    h = '(Some %d)' % line
    if v == 'sym': d = 'sym'
    elif v.startswith('of-sym('): d = 'of_sym %d' % line
    elif v == 'ignore-sym': d = 'define_sym [] None'
    elif v in ('cmd1', 'cmd2'): d = v
    elif v == 'matrix-env': d = 'matrix_env'
    else:
        f, rest = v.split('(', 1)
        args = split_args(rest[:-1]); pos = []; named = {}
        for a in args:
            k = a.split(':', 1)[0]
            if k in ('alias', 'handle', 'kind', 'sym', 'delim'): named[k] = a.split(':', 1)[1].strip()
            else: pos.append(a)
        hh = h if ('handle' in named and named['handle'] != 'none') or ('sym' in named and named['sym'] != 'none') else 'None'
        kind = text(named.get('kind', '"none"'))
        if f == 'define-sym': d = 'define_sym %s %s' % (text(pos[0]), hh)
        elif f == 'define-greedy-cmd': d = 'define_greedy_cmd %s %s' % (text(pos[0]), hh)
        elif f == 'greedy-handle': d = 'define_greedy_cmd %s %s' % (text(pos[0]), h)
        elif f == 'define-infix-cmd': d = 'define_infix_cmd %s %s' % (text(pos[0]), hh)
        elif f == 'define-glob-cmd': d = 'define_glob_cmd %s %s %s' % (text(pos[0]), text(pos[1]), hh)
        elif f == 'define-cmd': d = 'define_cmd %s %s %s' % (pos[0], opt(named.get('alias')), hh)
        elif f == 'arrow-handle': d = 'define_cmd 1 None %s' % h
        elif f == 'limits-handle': d = 'define_cmd 1 %s %s' % (opt(pos[0]), h)
        elif f == 'left1-op': d = 'left1_op %s' % text(pos[0])
        elif f == 'matrix-handle': d = 'define_env None (tx "is-matrix") None %s' % h
        elif f == 'define-env':
            d = 'define_env %s %s %s %s' % ('None' if pos[0] == 'none' else '(Some %s)' % pos[0], kind, opt(named.get('alias')), hh)
        elif f == 'define-glob-env':
            d = 'Prelude.define_glob_env %s %s %s %s' % (text(pos[0]), kind, opt(named.get('alias')), hh)
        else: raise Exception(v)
    out.append('  (%s, %s)' % (tx(key) if key else '[]', d))
with open('/verif/rocq/theories/StandardDefs.v', 'w') as o:
    o.write('''(** GENERATED by tools/gen_standard_defs.py from
    packages/mitex/specs/latex/standard.typ:95-1186 (the definitions passed to
    process-spec; the local functions of lines 71-87 are replaced by what they
    return).  A handler is given by the line it is defined on. *)
From Verif Require Export Prelude.
Local Open Scope N_scope.
''')
    parts = [out[i:i+40] for i in range(0, len(out), 40)]
    for i, p in enumerate(parts):
        o.write('Definition standard_part_%d : list (text * definition N) := [\n' % i + ';\n'.join(p) + '\n].\n')
    o.write('Definition standard_definitions : list (text * definition N) := List.concat\n  [%s].\n'
            % '; '.join('standard_part_%d' % i for i in range(len(parts))))
