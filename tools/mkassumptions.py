#!/usr/bin/env python3
"""Runs Print Assumptions on every theorem of MANIFEST.json (the development must be built) and writes the theorems grouped by the
axioms they use into section 6 of DESIGN.md."""
import json, glob, os, re, subprocess, tempfile
root = os.path.dirname(os.path.dirname(os.path.abspath(__file__)))
man = json.load(open(os.path.join(root, "MANIFEST.json")))
where = {}
for f in glob.glob(os.path.join(root, "rocq/theories/Props/*.v")):
    for m in re.finditer(r"^\s*Theorem\s+(C\d+_\w+)", open(f).read(), re.M):
        where[m.group(1)] = os.path.basename(f)[:-2]
names = [t for c in man["claims"] for t in c["theorems"]]
d = tempfile.mkdtemp()
src = "From Verif.Props Require %s.\n" % " ".join(sorted(set(where.values())))
for n in names:
    src += 'Fail Fail Definition marker_%s := tt.\nPrint Assumptions Verif.Props.%s.%s.\n' % (n, where[n], n)
open(d + "/a.v", "w").write(src)
o = subprocess.run(["coqc", "-Q", os.path.join(root, "rocq/theories"), "Verif", d + "/a.v"], stdout=subprocess.PIPE, stderr=subprocess.STDOUT, text=True).stdout
parts = re.split(r"(?=^Closed under the global context|^Axioms:)", o, flags=re.M)[1:]
assert len(parts) == len(names), (len(parts), len(names), o[-2000:])
groups = {}
for n, p in zip(names, parts):
    ax = tuple(sorted(set(re.findall(r"^([A-Za-z_][\w.]*)\s*:(?!\n)", p[7:], re.M)))) if p.startswith("Axioms") else ()
    groups.setdefault(ax, []).append(n)
text = ""
for ax, l in sorted(groups.items(), key=lambda x: (len(x[0]), x[0])):
    text += "* **%s** (%d theorems): %s\n" % (", ".join("`%s`" % a for a in ax) if ax else "no axioms", len(l), ", ".join(l))
f = os.path.join(root, "DESIGN.md")
s = open(f).read()
a, b = s.index("<!-- assumptions -->"), s.index("<!-- /assumptions -->")
open(f, "w").write(s[:a] + "<!-- assumptions -->\n" + text + s[b:])
