"""Append the generated sections (findings, assumptions per theorem) to DESIGN.md.
Needs a built rocq directory.  Run from /verif."""
import re, glob, os, subprocess, tempfile
root = os.path.abspath(os.path.join(os.path.dirname(__file__), '..'))
th = os.path.join(root, 'rocq', 'theories')
listed = open(os.path.join(root, 'rocq', '_CoqProject')).read()
files = [f for f in sorted(glob.glob(th + '/Prop_*.v')) if 'theories/' + os.path.basename(f) in listed]
findings, classes = [], {}
for f in files:
    s = open(f).read()
    mod = os.path.basename(f)[:-2]
    names = re.findall(r'(?m)^Theorem (C\d+_\w+)', s)
    for m in re.finditer(r'(?m)^Theorem (C\d+_\w+_refuted)', s):
        pre = s[:m.start()].rstrip()
        c = ' '.join(pre[pre.rfind('(**') + 3:-2].split()) if pre.endswith('*)') else ''
        c = re.sub(r'^(C\d+ ?)?(:? ?\(finding\):?|finding:|Finding:|\(Finding\.\)|:) *', '', c)
        findings.append((m.group(1), c))
    with tempfile.TemporaryDirectory() as d:
        p = os.path.join(d, 'Chk.v')
        open(p, 'w').write(f'From Verif Require Import {mod}.\n' + ''.join(f'Print Assumptions {n}.\n' for n in names))
        out = subprocess.run(['coqc', '-Q', th, 'Verif', p], stdout=subprocess.PIPE, stderr=subprocess.STDOUT, text=True).stdout
    blocks = re.split(r'(?m)^(?=Closed under|Axioms:)', out)[1:]
    assert len(blocks) == len(names), (f, out[:500])
    for n, b in zip(names, blocks):
        ax = tuple(sorted(set(re.findall(r"(?m)^([A-Za-z][\w.']*)", b)) - {'Axioms'}))
        if 'Axioms' not in b: ax = ()
        classes.setdefault(ax, []).append(n)
p = os.path.join(root, 'DESIGN.md')
s = open(p).read().split('## Findings')[0]
s += '## Findings\n\nBehaviour that contradicts the documentation or the evident intent, each with a theorem.\n\n'
s += ''.join(f'* `{n}`: {c}\n' for n, c in sorted(findings))
s += '\n## Assumptions per theorem\n'
for ax, ns in sorted(classes.items(), key=lambda t: len(t[0])):
    s += '\n' + ('Closed under the global context' if not ax else 'Axioms ' + ', '.join(f'`{a}`' for a in ax)) + f' ({len(ns)} theorems): ' + ', '.join(sorted(ns)) + '.\n'
open(p, 'w').write(s)
print({len(a): len(n) for a, n in classes.items()}, len(findings))
