"""Regenerate ASSUMPTIONS.md: what Print Assumptions lists for every theorem of MANIFEST.json.
Run from /verif after a build of rocq/."""
import json, re, subprocess, collections
claims = json.load(open('MANIFEST.json'))['claims']
mods = [l.strip()[9:-2] for l in open('rocq/_CoqProject') if l.startswith('theories/')]
where = {}
for m in mods:
    for n in re.findall(r'^\s*(?:Theorem|Lemma|Corollary|Example|Fact|Proposition|Remark)\s+(\w+)',
                        open(f'rocq/theories/{m}.v').read(), re.M):
        where.setdefault(n, m)
names = []
for c in claims:
    for t in c['theorems']:
        t = t.split('.')[-1]
        if t not in names: names.append(t)
src = ''.join(f'From Verif Require {m}.\n' for m in sorted({where[n] for n in names}))
src += ''.join(f'Print Assumptions Verif.{where[n]}.{n}.\nCheck tt.\n' for n in names)
open('/tmp/Assum.v', 'w').write(src)
out = subprocess.run('coqc -Q theories Verif /tmp/Assum.v -o /tmp/Assum.vo', shell=True, cwd='rocq',
                     capture_output=True, text=True)
assert out.returncode == 0, out.stderr[-2000:]
parts = out.stdout.split('tt\n     : unit\n')
groups = collections.OrderedDict()
for n, p in zip(names, parts):
    ax = tuple(sorted(set(re.findall(r'^([A-Z][\w.]*\w)(?= :|$)', p, re.M)) - {'Axioms', 'Closed'}))
    groups.setdefault(ax, []).append((where[n], n))
with open('ASSUMPTIONS.md', 'w') as f:
    f.write('# What `Print Assumptions` lists for each claimed theorem\n\n'
            'Generated by `tools/assumptions.py` from the compiled modules.\n')
    for ax, l in sorted(groups.items(), key=lambda g: len(g[0])):
        f.write('\n## ' + (', '.join(f'`{a}`' for a in ax) if ax else 'Closed under the global context') + f' ({len(l)} theorems)\n\n')
        by = collections.OrderedDict()
        for m, n in l: by.setdefault(m, []).append(n)
        for m, ns in by.items(): f.write(f'* {m}: ' + ', '.join(ns) + '\n')
print({a: len(l) for a, l in groups.items()})
