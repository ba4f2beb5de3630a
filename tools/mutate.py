#!/usr/bin/env python3
"""Mutation runner (scratch copies outside /verif).
usage: mutate.py queue.jsonl results.jsonl
Each queue line: {"id","file","old","new","definition","edit","claim"} and maybe "targets" (modules to rebuild and check).  A scratch copy of the built
development is edited and rebuilt; every proof which breaks is admitted in the scratch copy and the
build goes on; the theorems Cnn_* whose Print Assumptions then shows an admitted proof (or which broke
themselves, or whose file does not compile) are reported."""
import json, os, re, subprocess, sys, shutil
BASE = os.environ.get("MUT_BASE", "/tmp/mutbase"); WORK = os.environ.get("MUT_WORK", "/tmp/mutwork")
QD = os.environ.get("MUT_Q", "/tmp/mutq")
HEAD = re.compile(r'^\s*(?:Local |Global |#\[[^\]]*\]\s*)?(Theorem|Lemma|Example|Corollary|Fact|Remark|Instance|Definition|Fixpoint|Program)\s+(\w+)', re.M)
def admit(path, line):
    t = open(path).read(); offs = [0]
    for l in t.split('\n'): offs.append(offs[-1] + len(l) + 1)
    pos = offs[line] - 1
    heads = [m for m in HEAD.finditer(t) if m.start() <= pos]
    if not heads: return None
    h = heads[-1]
    m = re.compile(r'Proof(?: using[^.]*)?\.(.*?)\b(Qed|Defined)\.', re.S).search(t, h.start())
    if not m or h.group(1) in ('Fixpoint',): return (h.group(2), False)
    if m.start() > pos and h.group(1) in ('Definition', 'Program'): return (h.group(2), False)
    nl = m.group(0).count('\n')
    t = t[:m.start()] + 'Proof. Admitted.' + '\n' * nl + t[m.end():]
    open(path, 'w').write(t)
    return (h.group(2), True)
def run(q):
    subprocess.run(['rm', '-rf', WORK]); subprocess.run(['cp', '-a', BASE, WORK])
    p = f"{WORK}/theories/{q['file']}"; t = open(p).read()
    if t.count(q['old']) != 1: return {**q, 'error': f"old occurs {t.count(q['old'])} times"}
    open(p, 'w').write(t.replace(q['old'], q['new']))
    broken, dead, seen = [], [], set()
    for rnd in range(60):
        r = subprocess.run(f"ulimit -v 7000000; ulimit -t 500; cd {WORK} && make -k -j{os.environ.get('MUT_J','2')} {' '.join('theories/%s.vo' % x for x in q.get('targets', []))} 2>&1", shell=True, capture_output=True, text=True)
        errs = re.findall(r'File "\./theories/(\w+\.v)", line (\d+), characters [^\n]*\nError', r.stdout)
        if r.returncode == 0: break
        progress = False
        for f, l in errs:
            a = admit(f"{WORK}/theories/{f}", int(l))
            if a and a[1]:
                if (f, a[0]) not in seen: seen.add((f, a[0])); broken.append(f"{f[:-2]}.{a[0]}"); progress = True
            else: dead.append(f"{f}:{l}" + (f" ({a[0]})" if a else ''))
        if not progress:
            if not errs: dead.append('no error message: ' + r.stdout[-300:])
            break
    thms = {}
    for f in sorted(os.listdir(f"{WORK}/theories")):
        if f.endswith('.v') and (not q.get('targets') or f[:-2] in q['targets']):
            for m in re.finditer(r'^ *(?:Theorem|Lemma|Corollary)\s+(C\d+_\w+)', open(f"{WORK}/theories/{f}").read(), re.M): thms.setdefault(f[:-2], []).append(m.group(1))
    aff, unbuilt = [], []
    # one query file per module, to avoid name clashes
    for mod, names in thms.items():
        if not os.path.exists(f"{WORK}/theories/{mod}.vo") or any(d.startswith(mod + '.v') for d in dead): unbuilt.append(mod); continue
        src = f"From Verif Require {mod}.\n" + ''.join(f'Goal True. idtac "@@ {n}". exact I. Qed.\nPrint Assumptions Verif.{mod}.{n}.\n' for n in names)
        open(QD + '/q.v', 'w').write(src)
        r = subprocess.run(f"cd {WORK} && coqc -Q theories Verif {QD}/q.v", shell=True, capture_output=True, text=True)
        if r.returncode: unbuilt.append(mod); continue
        cur = None
        for ln in r.stdout.split('\n'):
            if ln.startswith('@@ '): cur = ln[3:].strip()
            elif ln.startswith('Axioms:') and cur: aff.append(cur)
    return {**q, 'broken': broken, 'dead': dead, 'affected': sorted(set(aff)), 'not_built': unbuilt}
def main():
    done = set()
    if os.path.exists(sys.argv[2]): done = {json.loads(l)['id'] for l in open(sys.argv[2])}
    for l in open(sys.argv[1]):
        if not l.strip(): continue
        q = json.loads(l)
        if q['id'] in done: continue
        try: r = run(q)
        except Exception as e: r = {**q, 'error': repr(e)}
        open(sys.argv[2], 'a').write(json.dumps(r) + '\n')
if __name__ == '__main__': main()
