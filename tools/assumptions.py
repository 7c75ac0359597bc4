"""Print Assumptions of every theorem of MANIFEST.json, grouped by answer (needs a compiled rocq/)."""
import json, re, subprocess, os, collections
R = '/verif/rocq'
names = [f[:-2] for f in sorted(os.listdir(R + '/theories')) if f.startswith('Properties_') and f.endswith('.v')]
groups = collections.OrderedDict()
for n in names:
    ths = re.findall(r'^Theorem (C\d+_\w+)', open(f'{R}/theories/{n}.v').read(), re.M)
    os.makedirs('/tmp/assume', exist_ok=True)
    open('/tmp/assume/Chk.v', 'w').write(f'From Verif Require Import {n}.\n' + ''.join(f'Goal True. idtac "@@{x}". exact I. Qed. Print Assumptions {x}.\n' for x in ths))
    r = subprocess.run(['coqc', '-Q', R + '/theories', 'Verif', '/tmp/assume/Chk.v'], capture_output=True, text=True)
    assert r.returncode == 0, r.stderr
    for part in r.stdout.split('@@')[1:]:
        x, rest = part.split('\n', 1)
        ax = tuple(sorted(set(re.findall(r'^([\w.]+)(?=\s*:|\s*$)', rest, re.M)) - {'Axioms', 'Axioms:'}))
        if 'Closed under' in rest: ax = ()
        groups.setdefault(ax, []).append(x.strip())
for ax, l in groups.items():
    print('* ' + ('**Closed under the global context** (no axiom)' if not ax else ', '.join(f'`{a}`' for a in ax)) + f' ({len(l)} theorems):')
    print('  ' + ', '.join(sorted(l)) + '.\n')
