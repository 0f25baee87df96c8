#!/usr/bin/env python3
"""Which functions of /repo/src are cited by which definitions of rocq/theories; prints COVERAGE.md."""
import re, glob, os
repo = '/repo/src/'
files = ['node','tree','forest','heap','node_vec','size','iter','into_iter','iter_rc','bfs','bfs_impls','walk','rc','tuple','notation','macros']
# citations: file -> list of (a, b, coq file, definition)
cites = {}
cite = re.compile(r'\b([a-z_]+)\.rs:\s*([0-9]+(?:\s*-\s*[0-9]+)?(?:(?:\s*\[[^\]]*\])?(?:\s*[,/]\s*|\s+and\s+)[0-9]+(?:\s*-\s*[0-9]+)?)*)')
def ranges(s):
    s = re.sub(r'\[[^\]]*\]', '', s)
    for m in re.finditer(r'([0-9]+)(?:\s*-\s*([0-9]+))?', s):
        a = int(m.group(1)); yield a, int(m.group(2) or a)
tok = re.compile(r'\(\*.*?\*\)|^\s*(?:Definition|Fixpoint|Record|Inductive|with|CoFixpoint)\s+(\S+)', re.S | re.M)
for f in sorted(glob.glob('rocq/theories/*Model*.v') + ['rocq/theories/Machine.v'] + glob.glob('rocq/theories/*Spec.v')):
    s = open(f).read(); name = os.path.basename(f)[:-2]
    toks = [(m.group(0), m.group(1)) for m in tok.finditer(s)]
    pending = []; cur = None
    # a comment belongs to the definition after it, or to the one it is inside of
    pos = [(m.start(), m.group(1), m.group(0)) for m in tok.finditer(s)]
    for k, (st, d, txt) in enumerate(pos):
        if d: 
            for c in pending: cites.setdefault(c[0], []).append((c[1], c[2], name, d))
            pending = []; cur = d
        else:
            top = s[s.rfind('\n', 0, st) + 1:st].strip() == '' and txt.startswith('(**')
            for m in cite.finditer(txt):
                for a, b in ranges(m.group(2)):
                    if top: pending.append((m.group(1), a, b))
                    elif cur: cites.setdefault(m.group(1), []).append((a, b, name, cur))
            if top:  # further ranges of the same file written without its name are not parsed
                pass
fnre = re.compile(r'^\s*(?:pub(?:\([a-z]+\))?\s+)?(?:unsafe\s+)?fn\s+([a-z_0-9]+)')
implre = re.compile(r'^\s*impl\b(?:<.*?>)?\s*(.*?)\s*(?:\{.*)?$')
out = []; missing = []
for f in files:
    lines = open(repo + f + '.rs').read().split('\n')
    impl = ''; rows = []
    fns = []
    for n, l in enumerate(lines, 1):
        if 'cfg(' in l and ('test' in l or 'miri' in l): break
        if l.strip().startswith('//'): continue
        m = re.match(r'^\s*impl', l)
        if m: impl = re.sub(r'\s+', ' ', l.strip().rstrip('{').strip())
        for m in re.finditer(r'\bfn\s+([a-z_0-9]+)', l):
            fns.append((n, m.group(1), impl))
    total = len(lines)
    for k, (n, name, impl) in enumerate(fns):
        end = n; ind = len(lines[n-1]) - len(lines[n-1].lstrip())
        if lines[n-1].count('{') != lines[n-1].count('}') or '{' not in lines[n-1]:
            end = n
            while end < total and not (lines[end-1].startswith(' ' * ind + '}') and end > n): end += 1
        defs = []
        for a, b, cf, d in cites.get(f, []):
            if a <= end and b >= n and (b - a) < 120 and (cf + '.' + d) not in defs: defs.append(cf + '.' + d)
        rows.append((n, end, name, impl, defs))
        if not defs: missing.append((f, n, name, impl))
    out.append((f, rows))

# functions no definition cites: what models them
fwd = {
 ('node',22): 'Data::None is `None` of `n_dat`', ('node',26): 'test of `n_dat`', ('node',53): 'assignment of `n_dat`',
 ('node',348): '`NodeModel.front`', ('node',354): '`NodeModel.back`', ('node',360): '`NodeModel.back`',
 ('node',546): 'an address is a `ptr`', ('node',550): 'assignment of `n_head`', ('node',554): 'assignment of `n_tail`', ('node',558): 'assignment of `n_up`',
 ('tree',69): 'the address of the tree', ('tree',72): 'the address of the tree', ('tree',74): 'the address of the tree', ('tree',241): 'the address of the tree',
 ('forest',27): 'the address of the forest', ('forest',28): 'the address of the forest', ('forest',56): 'the address of the forest',
 ('forest',275): '`NodeModel.forest_new`', ('iter',45): 'constructor of `NodeModel.citer`', ('iter',60): 'a `citer` is a value', ('iter',96): 'constructor of `NodeModel.citer`',
 ('iter',100): '`NodeModel.ci_once`', ('iter',132): 'constructor of `NodeModel.citer`', ('iter',136): '`NodeModel.ci_once`', ('iter_rc',25): '`NodeModel.ci_size_hint`',
 ('bfs',23): 'inlined in `BfsModel.bfs`', ('bfs',67): 'inlined in `BfsModel.bfs_children`', ('bfs',31): 'constructor only', ('bfs',75): 'constructor only', ('bfs',91): 'inlined in the `map_*` operations',
 ('bfs',112): 'projection of the pair (iterator, size)', ('bfs',120): 'projection of the pair (iterator, size)', ('bfs',129): 'projection', ('bfs',138): 'projection',
 ('bfs_impls',85): '`BfsMut`: as `bfs_children` over `IterMut`', ('bfs_impls',121): 'as `bfs` over `IterMut`', ('bfs_impls',180): 'as `bfs_children` over `IterMut`',
 ('bfs_impls',228): 'as `bfs_children` over `IterMut`', ('bfs_impls',243): 'as `bfs` over `IterMut`',
 ('walk',17): 'projection of a visit', ('walk',37): 'constructor `WN`', ('walk',40): 'constructor `WN`',
 ('rc',455): 'a weak handle is the address: `RcModel` 187', ('rc',176): '**not modelled** (unsafe)', ('rc',179): '**not modelled** (unsafe)', ('macros',10): 'forwards to the node', ('macros',74): 'forwards to the node' }
def forward(f, n, name, impl):
    if (f, n) in fwd: return fwd[(f, n)]
    if f in ('tree', 'forest'): return 'forwards to `Node::%s`' % name
    if f == 'walk': return 'forwards to `Walk::%s`' % name
    if f == 'rc': return 'see the neighbouring function in `RcModel`'
    return '?'
if __name__ == '__main__':
    print("# Which definition models which function\n\nGenerated by tools/coverage.py from the citations in the model files: every non-test function of /repo/src.")
    for f, rows in out:
        print(f"\n### {f}.rs\n\n| lines | function | model |\n|---|---|---|")
        for n, e, name, impl, defs in rows:
            print(f"| {n}{'-'+str(e) if e != n else ''} | `{name}` ({impl[:70].replace('|','/')}) | {', '.join('`'+d+'`' for d in defs[:6]) or forward(f, n, name, impl)}{' …' if len(defs)>6 else ''} |")
    import sys
    print(len(missing), file=sys.stderr)
    for m in missing: print(m, file=sys.stderr)
