#!/usr/bin/env python3
"""Generates rocq/theories/Conformance.v: the repository's own snapshot tests
(crates/mitex/tests, crates/mitex-parser/tests/ast*, crates/mitex-lexer/tests) as
executable checks of the model.  These are tests, not proofs."""
import re, glob, sys
R = '/repo/crates/'

def rust_strings(src, i):
    """parse a rust string literal at i -> (value, end)"""
    m = re.compile(r'r(#*)"').match(src, i)
    if m:
        end = '"' + m.group(1)
        j = src.index(end, m.end())
        return src[m.end():j], j + len(end)
    assert src[i] == '"', src[i:i+20]
    out = ''; i += 1
    while src[i] != '"':
        if src[i] == '\\':
            i += 1
            out += {'n': '\n', '"': '"', '\\': '\\', 't': '\t', 'r': '\r'}[src[i]]
        else: out += src[i]
        i += 1
    return out, i + 1

def dedent(s):
    if '\n' not in s: return s.rstrip()
    lines = s.split('\n')
    ind = [len(l) - len(l.lstrip(' ')) for l in lines[1:] if l.strip()]
    n = min(ind) if ind else 0
    lines = [lines[0]] + [l[n:] for l in lines[1:]]
    return '\n'.join(lines).lstrip('\n').rstrip()

def strip_line_comments(src):
    return '\n'.join('' if l.strip().startswith('//') else l for l in src.split('\n'))

def find(files, funs, macro):
    pat = re.compile(r'%s!\(\s*(%s)\(\s*' % (macro, '|'.join(funs)))
    for f in sorted(files):
        src = open(f).read()
        for m in pat.finditer(src):
            ls = src.rfind('\n', 0, m.start()) + 1
            if src[ls:m.start()].strip().startswith('//'): continue
            inp, j = rust_strings(src, m.end())
            m2 = re.compile(r'\s*\)(\.unwrap(_err)?\(\))?,\s*@').match(src, j)
            if not m2: continue
            exp, _ = rust_strings(src, m2.end())
            yield m.group(1), bool(m2.group(2)), inp, dedent(exp)

def tx(s):
    segs = []; cur = ''
    for c in s:
        if 32 <= ord(c) < 127: cur += c
        else:
            if cur: segs.append('tx "%s"' % cur.replace('"', '""')); cur = ''
            segs.append('[%d]' % ord(c))
    if cur: segs.append('tx "%s"' % cur.replace('"', '""'))
    return '(' + ' ++ '.join(segs) + ')' if segs else '[]'

def undebug(s):
    out = ''; i = 0
    while i < len(s):
        if s[i] == '\\':
            i += 1
            if s[i] == 'u':
                j = s.index('}', i); out += chr(int(s[i+2:j], 16)); i = j
            else: out += {'n': '\n', '"': '"', '\\': '\\', 't': '\t', 'r': '\r', "'": "'"}[s[i]]
        else: out += s[i]
        i += 1
    return out

KINDS = dict(zip("""error' br' space' comment' lbrace' rbrace' lbracket' rbracket' lparen' rparen' comma'
tilde' slash' word' dollar' begin-math' end-math ampersand' hash' asterisk' at-sign' underscore' caret'
apostrophe' ditto' semicolon' sym' cmd-name args clause-lr newline text curly bracket paren cmd env lr begin
end block-comment embedded-code attach-comp formula root""".split(),
"""TokenError TokenLineBreak TokenWhiteSpace TokenComment TokenLBrace TokenRBrace TokenLBracket TokenRBracket
TokenLParen TokenRParen TokenComma TokenTilde TokenSlash TokenWord TokenDollar TokenBeginMath TokenEndMath
TokenAmpersand TokenHash TokenAsterisk TokenAtSign TokenUnderscore TokenCaret TokenApostrophe TokenDitto
TokenSemicolon TokenCommandSym ClauseCommandName ClauseArgument ClauseLR ItemNewLine ItemText ItemCurly
ItemBracket ItemParen ItemCmd ItemEnv ItemLR ItemBegin ItemEnd ItemBlockComment ItemTypstCode
ItemAttachComponent ItemFormula ScopeRoot""".split()))
TOK = re.compile(r"""([a-z-]+'?)\("((?:[^"\\]|\\.)*)"(\.\.)?\)""")

def leaf(m):
    s = undebug(m.group(2))
    if m.group(3): s += '..'
    return 'Leaf %s %s' % (KINDS[m.group(1)], tx(s))

def parse_snap(s):
    lines = s.split('\n')
    pos = 0
    def node(level):
        nonlocal pos
        line = lines[pos][level:]; pos += 1
        m = TOK.fullmatch(line)
        if m: return leaf(m)
        m = re.fullmatch(r"([a-z-]+'?)\((.*)\)", line)
        if m:
            return 'Node %s [%s]' % (KINDS[m.group(1)], '; '.join(leaf(x) for x in TOK.finditer(m.group(2))))
        k = KINDS[line]; ch = []
        while pos < len(lines) and lines[pos].startswith('|' * (level + 1)) :
            ch.append(node(level + 1))
        return 'Node %s [%s]' % (k, '; '.join(ch))
    t = node(0)
    assert pos == len(lines), (s, pos)
    return t

def token(k):
    k = k.replace('Left(', 'TLeft(').replace('Right(', 'TRight(')
    k = re.sub(r'\((\w+)\((\w+)\)\)', r'(\1 If\2)', k)
    m = re.fullmatch(r'(\w+)\((\w+)(?: (\w+))?\)', k)
    if not m: return 'TError' if k == 'Error' else k
    if m.group(1) == 'CommandName':
        i = m.group(2)
        i = {'If': 'CIf', 'Else': 'CElse', 'EndIf': 'CEndIf', 'Left': 'CLeft', 'Right': 'CRight'}.get(i, i)
        if m.group(3):
            return '(CommandName (%s %s))' % (i, m.group(3))
        return '(CommandName %s)' % i
    return '(%s %s)' % (m.group(1), m.group(2))

IFS = {'IfIf' + x: 'If' + x for x in 'Typst False True Case Num Cat X Void HBox VBox HMode MMode VMode Inner Dim Eof Star'.split()}
cv = list(find(glob.glob(R + 'mitex/tests/*.rs') + glob.glob(R + 'mitex/tests/cvt/*.rs'),
               ['convert_text', 'convert_math'], 'assert_snapshot'))
ast = list(find(glob.glob(R + 'mitex-parser/tests/ast.rs') + glob.glob(R + 'mitex-parser/tests/ast/*.rs'),
                ['parse'], 'assert_debug_snapshot'))
tk = list(find([R + 'mitex-lexer/tests/expand_macro.rs'], ['tokens', 'assert_plain_tokens'], 'assert_snapshot'))
sys.stderr.write('%d conversions, %d trees, %d token streams\n' % (len(cv), len(ast), len(tk)))

print('(** GENERATED by tools/gen_conformance.py: the snapshot tests of the repository')
print('    (crates/mitex/tests, crates/mitex-parser/tests/ast, crates/mitex-lexer/tests)')
print('    run on the model.  Tests of the model, not proofs. *)')
print('From Verif Require Import Api.')
print('Local Open Scope N_scope.')
print('''
Definition F : nat := 4000.
Fixpoint drop_nl (s : text) : text := match s with 10 :: r => drop_nl r | _ => s end.
Definition norm (s : text) : text := trim_end (drop_nl s).
Definition check_ok (r : cres text) (e : text) : bool :=
  match r with COk o => teqb (norm o) (norm e) | _ => false end.
Definition check_err (r : cres text) : bool := match r with CErr _ => true | _ => false end.
Fixpoint trunc_at (fuel n : nat) (s : text) : text :=
  match fuel with
  | O => s
  | S f => match split_bytes n s with Some (a, _) => a ++ tx ".." | None => trunc_at f (S n) s end
  end.
Definition snap (s : text) : text := if Nat.ltb (blen s) 25 then s else trunc_at 4 21 s.
Fixpoint tree_snap (a b : tree) : bool :=
  match a, b with
  | Leaf k s, Leaf k' s' => kind_eqb k k' && teqb (snap s) s'
  | Node k c, Node k' c' =>
    kind_eqb k k' &&
    (fix go l l' := match l, l' with
                    | [], [] => true
                    | x :: r, y :: r' => tree_snap x y && go r r'
                    | _, _ => false end) c c'
  | _, _ => false
  end.
Definition check_tree (s : text) (e : tree) : bool :=
  match parse_macro F PAGE DEFAULT_SPEC s with Ok t => tree_snap t e | _ => false end.
Fixpoint toks_eqb (a b : list tok) : bool :=
  match a, b with
  | [], [] => true
  | (k, s) :: a', (k', s') :: b' => token_eqb k k' && teqb s s' && toks_eqb a' b'
  | _, _ => false
  end.
Definition check_toks (s : text) (e : list tok) : bool :=
  match expand_all F PAGE engine_new DEFAULT_SPEC s with Ok l => toks_eqb l e | _ => false end.
''')
print('Definition conversions : list bool := [')
rows = []
for fn, err, inp, exp in cv:
    if err: rows.append('  check_err (%s F PAGE %s None)' % (fn, tx(inp)))
    else: rows.append('  check_ok (%s F PAGE %s None) %s' % (fn, tx(inp), tx(exp)))
print(';\n'.join(rows)); print('].')
print('Definition trees : list bool := [')
print(';\n'.join('  check_tree %s\n    (%s)' % (tx(i), parse_snap(e)) for _, _, i, e in ast)); print('].')
print('Definition streams : list bool := [')
rows = []
for _, _, inp, exp in tk:
    toks = []
    for line in (exp.split('\n') if exp else []):
        m = re.fullmatch(r'(.*?)\("((?:[^"\\]|\\.)*)"\)', line)
        k = token(m.group(1))
        for a, b in IFS.items(): k = re.sub(r'\b%s\b' % a, b, k)
        toks.append('(%s, %s)' % (k, tx(undebug(m.group(2)))))
    rows.append('  check_toks %s [%s]' % (tx(inp), '; '.join(toks)))
print(';\n'.join(rows)); print('].')
print('''
Example conversions_pass : forallb (fun b => b) conversions = true.
Proof. vm_compute. reflexivity. Qed.
Example trees_pass : forallb (fun b => b) trees = true.
Proof. vm_compute. reflexivity. Qed.
Example streams_pass : forallb (fun b => b) streams = true.
Proof. vm_compute. reflexivity. Qed.''')
