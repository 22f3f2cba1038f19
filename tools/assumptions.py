#!/usr/bin/env python3
"""Write ASSUMPTIONS.md: what Print Assumptions lists for each theorem of
MANIFEST.json.  Run after building rocq/; uses a scratch file outside /verif."""
import json, os, re, subprocess, sys, tempfile

ROOT = os.path.dirname(os.path.dirname(os.path.abspath(__file__)))
THEORIES = os.path.join(ROOT, 'rocq', 'theories')
DECL = re.compile(r'^\s*(?:Theorem|Lemma|Corollary|Proposition|Fact|Remark)\s+([\w\']+)', re.M)

claims = json.load(open(os.path.join(ROOT, 'MANIFEST.json')))['claims']
where = {}
for f in sorted(os.listdir(THEORIES)):
    if f.endswith('.v'):
        for t in DECL.findall(open(os.path.join(THEORIES, f)).read()):
            where.setdefault(t, []).append(f[:-2])

names = sorted({t for c in claims for t in c['theorems']})
missing = [t for t in names if t not in where]
by_file = {}
for t in names:
    for f in where.get(t, []):
        by_file.setdefault(f, []).append(t)

result = {}
for f, ts in sorted(by_file.items()):
    with tempfile.TemporaryDirectory() as d:
        p = os.path.join(d, 'A.v')
        with open(p, 'w') as o:
            o.write('From Verif Require %s.\n' % f)
            for t in ts:
                o.write('Goal True. idtac "@@ %s". exact I. Qed.\nPrint Assumptions Verif.%s.%s.\n' % (t, f, t))
        r = subprocess.run(['coqc', '-Q', THEORIES, 'Verif', p], capture_output=True, text=True)
        if r.returncode:
            print(f, r.stderr, file=sys.stderr)
        cur = None
        for line in r.stdout.split('\n'):
            m = re.match(r'@@ (\S+)', line)
            if m:
                cur = (f, m.group(1))
                result[cur] = set()
            elif cur and not line.startswith(('Closed', 'Axioms:', ' ')) and line.strip():
                result[cur].add(re.split(r'\s*:', line)[0].strip())

groups = {}
for (f, t), ax in result.items():
    groups.setdefault(tuple(sorted(ax)), []).append((t, f))
with open(os.path.join(ROOT, 'ASSUMPTIONS.md'), 'w') as o:
    o.write('# What Print Assumptions lists\n\nGenerated by `tools/assumptions.py` from the built development, '
            'for every theorem named in `MANIFEST.json`.\n')
    for ax, ts in sorted(groups.items(), key=lambda x: (len(x[0]), x[0])):
        o.write('\n## ' + ('Closed under the global context' if not ax else '%d assumptions of the standard library' % len(ax)) + '\n\n')
        for a in ax:
            o.write('* `%s`\n' % a)
        o.write('\nTheorems: ' + ', '.join('`%s` (%s)' % x for x in sorted(ts)) + '\n')
print(len(result), 'theorems;', len(groups), 'groups; missing:', missing)
