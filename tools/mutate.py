"""Mutation testing of the model.  usage: mutate.py mutants.json results.jsonl [start [end]]
Each mutant: {"file": "M_X", "def": name, "old": text, "new": text, "edit": words, "claim": words}.
The edit is made in a scratch copy (never in /verif); every file depending on the edited one
is recompiled; a lemma whose proof breaks is admitted there so that the rest can be checked;
a theorem counts as failed if its own proof breaks or Print Assumptions shows that it now
rests on an admitted lemma."""
import json, os, re, shutil, subprocess, sys, tempfile
SRC = os.environ.get('MUT_SRC', '/verif/rocq')
HEAD = re.compile(r'^\s*(?:Local\s+|Global\s+)?(Lemma|Theorem|Example|Corollary|Fact|Remark|Instance)\s+(\w+\'?)', re.M)
DEFH = re.compile(r'^\s*(?:#\[[^\]]*\]\s*)?(Definition|Fixpoint|Inductive|Record|Section|End|Let|Hypothesis|Variable|Context|Instance|Ltac|Print)\b', re.M)
def order():
    return [re.sub(r'.*/|\.v$', '', l.strip()) for l in open(SRC + '/_CoqProject') if l.strip().endswith('.v')]
def deps(names):
    d = {}
    for n in names:
        t = open(f'{SRC}/theories/{n}.v').read()
        d[n] = set(w for m in re.finditer(r'From Verif Require (?:Import|Export) ([^.]*)\.', t) for w in m.group(1).split())
    return d
def topo(names, d):
    out = []
    def go(n):
        if n in out: return
        for x in d[n]: go(x)
        out.append(n)
    for n in names: go(n)
    return out
def run(m, timeout=900):
    names = order(); d = deps(names); names = topo(names, d)
    work = tempfile.mkdtemp(prefix='mut_', dir='/tmp/mut')
    try:
        shutil.copytree(SRC, work + '/rocq')
        th = work + '/rocq/theories'
        p = f"{th}/{m['file']}.v"; s = open(p).read()
        if s.count(m['old']) != 1: return {'error': f"old text occurs {s.count(m['old'])} times"}
        open(p, 'w').write(s.replace(m['old'], m['new']))
        dirty = {m['file']}; broken = []; notes = []
        for n in names:
            if n not in dirty and not (d[n] & dirty): continue
            dirty.add(n)
            for attempt in range(80):
                try:
                    r = subprocess.run(['coqc', '-Q', 'theories', 'Verif', f'theories/{n}.v'], cwd=work + '/rocq', capture_output=True, text=True, timeout=timeout)
                except subprocess.TimeoutExpired:
                    notes.append(f'{n}: timeout'); return {'broken': broken, 'notes': notes, 'failed': []}
                if r.returncode == 0: break
                e = re.findall(r'File "[^"]*", line (\d+), characters (\d+)-(\d+):\s*\nError', r.stderr)
                if not e: notes.append(f'{n}: {r.stderr[-300:]}'); return {'broken': broken, 'notes': notes, 'failed': []}
                ln = int(e[-1][0]); t = open(f'{th}/{n}.v').read()
                pos = sum(len(x) + 1 for x in t.split('\n')[:ln - 1]) + int(e[-1][1])
                # last Lemma head whose Proof starts before pos and whose Qed is after
                cand = None
                for h in HEAD.finditer(t):
                    if h.start() > pos: break
                    cand = h
                ok = False
                if cand:
                    q = re.compile(r'\b(Qed|Defined)\.').search(t, cand.start())
                    pr = re.compile(r'\bProof\b').search(t, cand.start())
                    if q and pr and pr.start() < q.start() and q.end() >= pos and pos >= pr.start():
                        t = t[:pr.start()] + 'Proof. Admitted.' + '\n' * t.count('\n', pr.start(), q.end()) + t[q.end():]
                        broken.append(f'{n}.{cand.group(2)}'); ok = True
                if not ok:
                    notes.append(f'{n}: line {ln}: ' + r.stderr[-200:].replace('\n', ' ')); return {'broken': broken, 'notes': notes, 'failed': []}
                open(f'{th}/{n}.v', 'w').write(t)
        # dependence of the manifest theorems on admitted lemmas
        props = [n for n in names if n.startswith('Properties_') and n in dirty]
        bn = set(b.split('.', 1)[1] for b in broken)
        failed = []
        for n in props:
            t = open(f'{th}/{n}.v').read()
            ths = re.findall(r'^Theorem (C\d+_\w+)', t, re.M)
            f = f'{th}/ChkTmp.v'
            open(f, 'w').write(f'From Verif Require Import {n}.\n' + ''.join(f'Goal True. idtac "@@{x}". exact I. Qed. Print Assumptions {x}.\n' for x in ths))
            r = subprocess.run(['coqc', '-Q', 'theories', 'Verif', 'theories/ChkTmp.v'], cwd=work + '/rocq', capture_output=True, text=True)
            for part in r.stdout.split('@@')[1:]:
                x = part.split('\n', 1)[0].strip()
                if x in bn or any(re.search(r'(^|[\s.])' + re.escape(b) + r'\s*(:|$)', part, re.M) for b in bn): failed.append(x)
        return {'broken': broken, 'notes': notes, 'failed': failed}
    finally:
        shutil.rmtree(work, ignore_errors=True)
if __name__ == '__main__':
    ms = json.load(open(sys.argv[1])); a = int(sys.argv[3]) if len(sys.argv) > 3 else 0; b = int(sys.argv[4]) if len(sys.argv) > 4 else len(ms)
    for i in range(a, b):
        r = run(ms[i]); r['i'] = i; r['mutant'] = ms[i]
        open(sys.argv[2], 'a').write(json.dumps(r) + '\n')
