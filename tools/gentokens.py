#!/usr/bin/env python3
"""Transcribes the quote!(...) bodies of libmgen's generators into Coq token
trees (rocq/theories/GenTokens.v).  Usage: gentokens.py REPO > GenTokens.v
The generated file is committed; this script is not part of the build."""
import re, sys
REPO = sys.argv[1] if len(sys.argv) > 1 else '/repo'
SRC = REPO + '/libmgen/src/'

OPS = ['<<=', '>>=', '...', '..=', '::', '->', '=>', '==', '!=', '<=', '>=', '<<', '>>', '&&', '||', '+=', '-=', '*=', '/=', '%=', '^=', '&=', '|=', '..']
TOK = re.compile(r'''\s+|(?P<doc>///(?!/)[^\n]*)|//[^\n]*|(?P<str>"(?:[^"\\]|\\.)*")|(?P<num>0x[0-9a-fA-F_]+\w*|\d+\.\d+\w*|\d+\w*)|(?P<id>\#?[A-Za-z_]\w*)|(?P<op>''' + '|'.join(re.escape(o) for o in OPS) + r'''|[-+*/%&|^<>=!.,;:#])|(?P<o>[({\[])|(?P<c>[)}\]])''')
coqstr = lambda s: '"%s"' % s.replace('"', '""')
def trees(s):
    stack, i = [[]], 0
    while i < len(s):
        m = TOK.match(s, i)
        if not m: raise Exception('lex %r' % s[i:i+30])
        i = m.end()
        add = stack[-1].append
        if m.group('doc'):
            add('TPunct "#"'); add('TGroup DBracket [TWord "doc"; TPunct "="; TLit %s]' % coqstr('"%s"' % m.group('doc')[3:]))
        elif m.group('str'): add('TLit %s' % coqstr(m.group('str')))
        elif m.group('num'): add('TLit %s' % coqstr(m.group('num')))
        elif m.group('id'): add('TWord %s' % coqstr(m.group('id')))
        elif m.group('op'): add('TPunct %s' % coqstr(m.group('op')))
        elif m.group('o'): stack.append([])
        elif m.group('c'):
            g = stack.pop(); d = {')': 'DParen', '}': 'DBrace', ']': 'DBracket'}[m.group('c')]
            stack[-1].append('TGroup %s [%s]' % (d, '; '.join(g)))
    assert len(stack) == 1
    return '[%s]' % '; '.join(stack[0])

def blank(m): return re.sub(r'[^\n]', ' ', m.group(0))
def strip(s): return re.sub(r'(?<![:/])//(?!/(?!/))[^\n]*', blank, s)
def bal(s, i):
    """text between the bracket at s[i] and its partner, strings and comments skipped"""
    o = s[i]; c = {'(': ')', '{': '}'}[o]; d = 0; j = i
    while True:
        m = re.compile(r'"(?:[^"\\]|\\.)*"|//[^\n]*').match(s, j)
        if m: j = m.end(); continue
        if s[j] == o: d += 1
        if s[j] == c:
            d -= 1
            if d == 0: return s[i+1:j], j
        j += 1
def functions(fname):
    s = strip(open(SRC + fname).read())
    for m in re.finditer(r'fn (gen_\w+)\([^)]*\) -> TokenStream \{', s):
        body, end = bal(s, m.end()-1)
        yield m.group(1), body, s.count('\n', 0, m.start())+1, s.count('\n', 0, end)+1
def quotes(body):
    """(name it is bound to, text) of each quote! in a body"""
    out, i = [], 0
    while True:
        m = re.compile(r'(?:let (\w+) = (?:if config\.generate_plots\(\) \{\s*)?)?(?<!parse_)quote!\s*([({])').search(body, i)
        if not m: return out
        t, e = bal(body, m.end()-1); out.append((m.group(1), t)); i = e+1
def wrap(text, width=112):
    out, line = [], ''
    for w in re.findall(r'"(?:[^"]|"")*"[\]);]*|\S+', text):
        if len(line) + 1 + len(w) > width: out.append(line); line = '    ' + w
        else: line = (line + ' ' + w) if line else w
    return '\n'.join(out + [line])
def define(name, text): print(wrap('Definition %s : list tt := %s.' % (name, trees(text))))

funcs = open(SRC + 'functions.rs').read()
funcs = re.sub(r'//[^\n]*', '', funcs[funcs.index('pub static FUNCTIONS'):])
table = re.findall(r'name: "(\w+)",\s*deps: &\[[^\]]*\],\s*num_terms: [^,]*,[^,]*,\s*gen: Some\(crate::(\w+)::(gen_\w+)\)', funcs)
allf = {}
for f in ['auxfuncs', 'hyperbolic', 'inv_trig', 'log_exp', 'recip_sqrt', 'stats_norm', 'stats_random', 'trig', 'test']:
    for n, b, l0, l1 in functions(f + '.rs'): allf[(f, n)] = (b, l0, l1)

print('''(** The code that libmgen generates, as streams of tokens.
    Transcribed from the quote! bodies in libmgen/src by tools/gentokens.py.  The
    definitions [q_...] are the bodies as they stand, the interpolated variable
    #v being the word "#v"; [quote] puts the tokens of the variables in.  A doc
    comment is the attribute #[doc = "..."] (its literal is written here as an
    ordinary string; rustc may write it as a raw one).  Ordinary comments are not
    tokens. *)
From Coq Require Import List String Ascii ZArith Bool.
From Verif Require Import RustFmt Item Functions.
Import ListNotations.
Open Scope string_scope.
Open Scope list_scope.

(** quote! (external): every #v is replaced by the tokens of v. *)
Fixpoint interpolate (env : list (string * list tt)) (t : tt) : list tt :=
  match t with
  | TGroup d ts => [TGroup d (flat_map (interpolate env) ts)]
  | TWord (String "#" v) => match find (fun p => String.eqb (fst p) v) env with Some p => snd p | None => [] end
  | _ => [t]
  end.
Definition quote (env : list (string * list tt)) (ts : list tt) : list tt := flat_map (interpolate env) ts.

(** The variables of the generators: [sub] are the tokens of #approx or #value,
    [bits] is config.num_bits().  auxfuncs.rs:271, 279, 286, 294 *)
Definition variables (bits : Z) (sub : list tt) : list (string * list tt) :=
  [("approx", sub); ("value", sub); ("fty", [TWord (width "f" bits)]); ("ity", [TWord (width "i" bits)]);
   ("uty", [TWord (width "u" bits)]); ("shift", [TLit (width "" (bits - 1) ++ "i32")])].
''')
b, l0, l1 = allf[('auxfuncs', 'gen_power_scale')]
print('(** auxfuncs.rs:%d-%d *)' % (l0, l1))
define('q_power_scale', quotes(b)[0][1])
print()
calls = []
for name, f, g in table:
    body, l0, l1 = allf[(f, g)]
    qs = quotes(body)
    print('(** %s.rs:%d-%d *)' % (f, l0, l1))
    extra, what = [], 'q_' + name
    if 'gen_power_scale' in body:
        m = re.search(r'gen_power_scale\(config, quote!\((\w+)\)', body)
        qs = [(v, t) for v, t in qs if v]
        for v, t in qs:
            define('q_%s_%s' % (name, v), t); extra.append('("%s", q_%s_%s)' % (v, name, v))
        extra.append('("name", [TWord "%s"])' % m.group(1)); what = 'q_power_scale'
    else:
        for v, t in qs:
            if v: define('q_%s_%s' % (name, v), t); extra.append('("%s", q_%s_%s)' % (v, name, v))
        qs = [t for v, t in qs if not v]
        if len(qs) == 2:
            assert 'if config.num_bits() == 32' in body
            define('q_%s_32' % name, qs[0]); define('q_%s_64' % name, qs[1])
            what = '(if (bits =? 32)%%Z then q_%s_32 else q_%s_64)' % (name, name)
        else:
            assert len(qs) == 1, (name, qs)
            define('q_' + name, qs[0])
    env = '(%svariables bits sub)' % ''.join(e + ' :: ' for e in extra)
    print(wrap('Definition tokens_%s (bits : Z) (sub : list tt) : list tt := quote %s %s.' % (name, env, what)) + '\n')
print('''(** The generators of the table, functions.rs:52-826: what is written before the
    tests.  [sub name] are the tokens that the generator of [name] interpolates. *)
Definition tokens (bits : Z) (sub : string -> list tt) (name : string) : list tt :=''')
for name, f, g in table:
    print('  if String.eqb name "%s" then tokens_%s bits (sub name) else' % (name, name))
print('  [].\n')
b, l0, l1 = allf[('auxfuncs', 'gen_test_function')]
qs = dict((v or '', t) for v, t in quotes(b) if t.strip())
print('(** auxfuncs.rs:%d-%d *)' % (l0, l1))
define('q_plot_function', qs['plot_function']); define('q_test_function', qs[''])
print('''Definition gen_test_function (plots : bool) : list tt :=
  quote [("plot_function", if plots then q_plot_function else [])] q_test_function.
''')
b, l0, l1 = allf[('test', 'gen_max_abs')]
qs = dict((v or '', t) for v, t in quotes(b) if t.strip())
print('(** test.rs:%d-%d: the quoted parts. *)' % (l0, l1))
define('q_row', [t for v, t in quotes(b) if v == 'row'][0])
define('q_max_abs_plot', qs['plot_function']); define('q_max_abs', qs[''])
b, l0, l1 = allf[('test', 'gen_histogram')]
print('(** test.rs:%d-%d *)' % (l0, l1))
define('q_histogram', quotes(b)[0][1])

# the test specifications
def spec_rows():
    for blk in re.split(r'\bFunction \{', funcs)[1:]:
        name = re.search(r'name: "(\w+)"', blk).group(1)
        for m in re.finditer(r'test_name: "(\w+)",\s*ref_expr: "([^"]*)",\s*rust_expr: "([^"]*)",\s*test: TestType::(\w+)\(\s*"([^"]*)",\s*"([^"]*)"', blk):
            yield name, m.groups()
specs = list(spec_rows())
assert len(specs) == len(re.findall(r'TestSpec \{', funcs)), (len(specs), len(re.findall(r'TestSpec \{', funcs)))
print('''
(** The test specifications of functions.rs:52-826, their strings as the tokens
    TokenStream::from_str makes of them: name of the test, tested expression, and
    for a histogram the density and the limits. *)
Record spec : Type := Spec { s_name : string; s_expr : list tt; s_hist : option (list tt * list tt * list tt) }.
Definition specs (name : string) : list spec :=''')
names = []
for n, _ in specs:
    if n not in names: names.append(n)
for n in names:
    rows = []
    for nn, (tn, ref, rust, ty, lo, hi) in specs:
        if nn == n:
            h = '(Some (%s, %s, %s))' % (trees(ref), trees(lo), trees(hi)) if ty == 'Histogram' else 'None'
            rows.append('Spec "%s" %s %s' % (tn, trees(rust), h))
    print(wrap('  if String.eqb name "%s" then [%s] else' % (n, '; '.join(rows))))
print('  [].')
print('''
(** test.rs:46-60, 74-86 [gen_max_abs], from the rows of the table (each the tokens
    of x, y and the error of y) and the literal of the accuracy. *)
Definition gen_max_abs (plots : bool) (rows : list (list tt * list tt * list tt)) (accuracy : string) (t : spec) : list tt :=
  let str := TLit (String """" (s_name t) ++ """") in
  let vars := [("test_name", [TWord (s_name t)]); ("test_name_str", [str]); ("expr", s_expr t); ("accuracy", [TLit accuracy]);
               ("accurate_values",
                flat_map (fun r => let '(x, y, ye) := r in quote [("x", x); ("y", y); ("ye", ye)] q_row) rows)] in
  quote (("plot_function", if plots then quote vars q_max_abs_plot else []) :: vars) q_max_abs.

(** test.rs:94-129 [gen_histogram] *)
Definition gen_histogram (pdf tmin tmax : list tt) (t : spec) : list tt :=
  quote [("test_name", [TWord (s_name t)]); ("expr", s_expr t); ("nbuckets", [TLit "32usize"]); ("niter", [TLit "1000000usize"]);
         ("tmin", tmin); ("tmax", tmax); ("refexpr", pdf)] q_histogram.

(** test.rs:132-141 [gen_test] *)
Definition gen_test (plots : bool) (rows : string -> list (list tt * list tt * list tt)) (accuracy : string -> string)
  (t : spec) : list tt :=
  match s_hist t with
  | Some (pdf, tmin, tmax) => gen_histogram pdf tmin tmax t
  | None => gen_max_abs plots (rows (s_name t)) (accuracy (s_name t)) t
  end.

(** main.rs:376-409: the token stream that is made for a list of names, without
    and with tests.  What the generators interpolate is given by [sub], [rows]
    and [accuracy].  [tests] is config.generate_tests(), [plots] is
    config.generate_plots(). *)
Definition library_tokens (bits : Z) (tests plots : bool) (sub : string -> list tt)
  (rows : string -> list (list tt * list tt * list tt)) (accuracy : string -> string) (names exclude : list string)
  : option (list tt) :=
  match get_functions_and_deps FUNCTIONS names exclude with
  | Some l =>
      let fs := map snd l in
      Some (flat_map (fun f => if f_gen f then tokens bits sub (f_name f) else []) fs
            ++ if tests then
                 gen_test_function plots ++ flat_map (fun f => flat_map (gen_test plots rows accuracy) (specs (f_name f))) fs
               else [])
  | None => None
  end.''')
