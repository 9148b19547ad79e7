"""Applies one edit to a scratch copy of the development and reports the property theorems that no
longer prove.  usage: mutate.py specs.json out.jsonl [jobs]
specs.json: list of {"def":..., "file": "XModel.v", "old":..., "new":..., "claim":...}.
Every proof that breaks is replaced by Admitted in the scratch copy, so that all broken theorems are found."""
import json, os, re, shutil, subprocess, sys
from concurrent.futures import ThreadPoolExecutor
SRC = os.environ.get('MUT_SRC', '/verif/rocq')
WORK = os.environ.get('MUT_WORK', '/tmp/mut')
HEAD = re.compile(r'^\s*(?:#\[[^\]]*\]\s*)?(?:Local |Global |Program )?(Lemma|Theorem|Corollary|Example|Fact|Remark|Definition|Fixpoint|Instance|Inductive|Record|Notation|Ltac|Print Assumptions|Let|Arguments|Existing)\s+([A-Za-z0-9_\']+)')

STDLIB = {'ClassicalDedekindReals.sig_forall_dec', 'ClassicalDedekindReals.sig_not_dec',
          'FunctionalExtensionality.functional_extensionality_dep', 'Classical_Prop.classic'}

def deps():
    d = {}
    for l in open(SRC + '/.Makefile.d'):
        m = re.match(r'theories/(\w+)\.vo .*?:(.*)', l)
        if m: d[m.group(1)] = [x for x in re.findall(r'theories/(\w+)\.vo\b', m.group(2))]
    return d

def order(d, root):
    seen, out = set(), []
    def visit(x):
        if x in seen: return
        seen.add(x)
        for y in d.get(x, []): visit(y)
        out.append(x)
    for x in d: visit(x)
    aff = {root}
    res = []
    for x in out:
        if x in aff or any(y in aff for y in d.get(x, [])):
            aff.add(x); res.append(x)
    return res

def compile_admitting(work, f):
    path = f'{work}/theories/{f}.v'
    broken = []
    for _ in range(400):
        r = subprocess.run(['timeout', '400', 'coqc', '-Q', 'theories', 'Verif', path], cwd=work, capture_output=True, text=True)
        if r.returncode == 0: return broken, r.stdout
        m = re.findall(r'line (\d+), characters', r.stderr)
        if not m: return broken + ['!timeout or crash ' + r.stderr[-200:]], ''
        n = int(m[-1]) - 1
        lines = open(path).read().split('\n')
        i = n
        while i >= 0 and not HEAD.match(lines[i]): i -= 1
        if i < 0: return broken + ['!head ' + r.stderr[-200:]], ''
        kind, name = HEAD.match(lines[i]).groups()
        # end of the item
        p = i
        has_proof = None
        if kind in ('Lemma', 'Theorem', 'Corollary', 'Example', 'Fact', 'Remark', 'Instance', 'Definition', 'Let'):
            q = i
            while q < len(lines) and not re.search(r'(^|\s)(Qed|Defined|Admitted)\.', lines[q]):
                if q > i and HEAD.match(lines[q]): break
                if has_proof is None and re.search(r'(^|\s)Proof\b', lines[q]): has_proof = q
                q += 1
            if q < len(lines) and has_proof is None and re.search(r'(^|\s)Proof\b', lines[q]): has_proof = q
        if has_proof is not None and n >= has_proof and 'Admitted' not in '\n'.join(lines[i:q+1]):
            pl = lines[has_proof]
            j = re.search(r'(^|\s)Proof\b[^.]*\.', pl)
            lines[has_proof:q+1] = [pl[:j.end()] + ' Admitted.'] + [''] * (q - has_proof)
            broken.append(name)
        else:
            e = i
            if has_proof is not None: e = q
            else:
                while e < len(lines) and not re.search(r'\.\s*$', lines[e]): e += 1
            for x in range(i, e + 1): lines[x] = ''
            broken.append('-' + name)
        open(path, 'w').write('\n'.join(lines))
    return broken + ['!too many'], ''

def run(k, spec, d):
    work = f'{WORK}/w{k}'
    shutil.rmtree(work, ignore_errors=True)
    shutil.copytree(SRC, work)
    root = spec['file'][:-2]
    path = f'{work}/theories/{spec["file"]}'
    s = open(path).read()
    if s.count(spec['old']) != spec.get('count', 1):
        shutil.rmtree(work); return dict(spec, error=f'pattern occurs {s.count(spec["old"])} times')
    open(path, 'w').write(s.replace(spec['old'], spec['new']))
    failed, first, inner = [], [], []
    for f in order(d, root):
        broken, out = compile_admitting(work, f)
        if f == root and broken: 
            if not (f.endswith('Properties')): inner.append('model does not compile: ' + ' '.join(broken)[:300])
        if f.endswith('Properties'):
            names = re.findall(r'^Print Assumptions (\w+)', open(f'{SRC}/theories/{f}.v').read(), re.M)
            left = re.findall(r'^Print Assumptions (\w+)', open(path if False else f'{work}/theories/{f}.v').read(), re.M)
            parts = re.split(r'^(?=Closed under the global context|Axioms:|Section Variables:)', out, flags=re.M)
            verdicts = [p for p in parts if re.match('Closed|Axioms:|Section', p)]
            def fine(p):
                if p.startswith('Closed'): return True
                return p.startswith('Axioms:') and all(n in STDLIB for n in re.findall(r'^(\S+)', p[7:], re.M))
            bad = [x for x in names if x not in left] + [x for x, v in zip(left, verdicts) if not fine(v)]
            if len(verdicts) != len(left): bad.append('!verdict mismatch %s' % f)
            failed += bad
            failed += ['example ' + b.lstrip('-') for b in broken if b.lstrip('-') not in names and 'Print' not in b]
        else:
            inner += broken
    shutil.rmtree(work)
    return dict(spec, failed=failed, inner=inner)

def main():
    specs = json.load(open(sys.argv[1])); jobs = int(sys.argv[3]) if len(sys.argv) > 3 else 4
    d = deps()
    with ThreadPoolExecutor(jobs) as ex, open(sys.argv[2], 'w') as o:
        for r in ex.map(lambda a: run(a[0], a[1], d), enumerate(specs)):
            o.write(json.dumps(r) + '\n'); o.flush()
            print(r['file'], '|', r['new'][:60].replace('\n', ' '), '->', r.get('error') or (len(r['failed']), r['failed'][:4], r['inner'][:3]), flush=True)
main()
