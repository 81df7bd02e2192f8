"""Lists, per source file, the functions whose lines are cited by definitions of the model.

Prints a Markdown list; with --design it replaces the list in DESIGN.md.
A function is listed as modelled if at least half of its lines are cited by comments in rocq/theories,
in part if fewer are, and not modelled if none is. Overload stubs and __repr__ are left out.
"""
import ast, glob, os, re, sys

root = '/repo/src'
here = os.path.dirname(os.path.dirname(os.path.abspath(__file__)))
files = [f for f in glob.glob(root + '/**/*', recursive=True) if f.endswith(('.py', '.ts', '.tsx')) and 'node_modules' not in f]
byname = {}
for f in files:
    byname.setdefault(os.path.basename(f), []).append(f)
cited = {}
for v in sorted(glob.glob(here + '/rocq/theories/*.v')):
    t = open(v).read()
    full = {}
    last = None
    for m in re.finditer(r'([\w/.@\-]*[\w\-]+\.(?:py|tsx?))', t):
        if '/' in m.group(1):
            full.setdefault(os.path.basename(m.group(1)), m.group(1))
    for c in re.findall(r'\(\*.*?\*\)', t, re.S):
        active = False
        c = re.sub(r'\s+', ' ', c)
        pat = r'([\w/\.@\-]*?)(\w[\w\-]*\.(?:py|tsx|ts))(?::([\d\-, ]+))?|(?<=[ (;])(\d+(?:-\d+)?)(?=[ ,;:.)\(\[])|([Ll]ines?) '
        for m in re.finditer(pat, c):
            if m[5]:
                active = True
                continue
            if m[2]:
                active = True
                cand = byname.get(m[2], [])
                pre = m[1]
                if len(cand) > 1 and not pre and m[2] in full:
                    pre = full[m[2]][:-len(m[2])]
                if len(cand) > 1 and pre:
                    tail = (pre.lstrip('.') + m[2]).replace('/repo/src/', '/').replace('src/reactpy', '/reactpy').replace('//', '/')
                    cand = [x for x in cand if x.endswith(tail) or pre + m[2] == x] or cand
                last = cand[0] if cand else None
                ranges = m[3] or ''
            else:
                ranges = m[4]
            if not last or not active:
                continue
            n = len(open(last).read().split('\n'))
            for r in re.findall(r'(\d+)(?:-(\d+))?', ranges):
                a, b = int(r[0]), int(r[1] or r[0])
                if a <= b <= n:
                    cited.setdefault(last, set()).update(range(a, b + 1))


def functions(f):
    out = []
    if f.endswith('.py'):
        def go(n, p):
            for x in ast.iter_child_nodes(n):
                if isinstance(x, ast.ClassDef):
                    go(x, p + x.name + '.')
                elif isinstance(x, (ast.FunctionDef, ast.AsyncFunctionDef)):
                    body = [s for s in x.body if not (isinstance(s, ast.Expr) and isinstance(s.value, ast.Constant))]
                    if body and x.name != '__repr__':
                        out.append((p + x.name, x.lineno, x.end_lineno))
        go(ast.parse(open(f).read()), '')
        return out
    lines = open(f).read().split('\n')
    for i, l in enumerate(lines):
        m = re.match(r'(?:export )?(?:default )?(?:async )?(?:function (\w+)|const (\w+)\s*=\s*(?:async )?\(|class (\w+))', l)
        if m:
            j = i
            while j + 1 < len(lines) and not re.match(r'[})]', lines[j]):
                j += 1
            if not any(re.match(r'[})]', x) for x in lines[i:j + 1]):
                j = i
            while j + 1 < len(lines) and re.match(r'\)', lines[j]) and not re.search(r'[;}]\s*$', lines[j]):
                j += 1
                while j + 1 < len(lines) and not re.match(r'[})]', lines[j]):
                    j += 1
            out.append((m[1] or m[2] or m[3], i + 1, j + 1))
    return out


def report():
    rows = []
    for f in sorted(files):
        name = f[len(root) + 1:]
        if name.startswith('build_scripts') or '/tests/' in name or '.test.' in name or '.d.ts' in name or (name.startswith('js/') and '/src/' not in name):
            continue
        groups = {'modelled': [], 'in part': [], 'not modelled': []}
        for n, a, b in functions(f):
            k = len([i for i in range(a, b + 1) if i in cited.get(f, ())])
            g = 'not modelled' if k == 0 else 'modelled' if 2 * k >= b - a + 1 else 'in part'
            if n not in groups[g]:
                groups[g].append(n)
        if any(groups.values()):
            rows.append('* `' + name.replace('js/packages/', '') + '` – ' + '; '.join(f'{g}: ' + ', '.join(f'`{x}`' for x in l) for g, l in groups.items() if l))
    return '\n'.join(rows)


if __name__ == '__main__':
    text = report()
    if '--design' in sys.argv:
        p = here + '/DESIGN.md'
        s = open(p).read()
        a, b = '<!-- coverage -->\n', '<!-- end of coverage -->'
        i, j = s.index(a) + len(a), s.index(b)
        open(p, 'w').write(s[:i] + text + '\n' + s[j:])
    else:
        print(text)
