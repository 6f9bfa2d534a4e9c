#!/usr/bin/env python3
"""Runs each Properties*.v and groups its theorems by what Print Assumptions lists.  Needs a finished build.
Prints the section of DESIGN.md between the ASSUMPTIONS marks and, with --write, replaces it."""
import glob, os, re, subprocess, sys, tempfile
from concurrent.futures import ThreadPoolExecutor
root = os.path.dirname(os.path.dirname(os.path.abspath(__file__)))
th = os.path.join(root, "rocq/theories")
groups = {}
def run(p):
    with tempfile.TemporaryDirectory() as t:
        return subprocess.run(["coqc", "-Q", th, "Verif", "-o", os.path.join(t, os.path.basename(p) + "o"), p],
                              capture_output=True, text=True).stdout
files = sorted(glob.glob(os.path.join(th, "Properties*.v")))
with ThreadPoolExecutor(4) as pool:
    outs = list(pool.map(run, files))
for p, out in zip(files, outs):
    names = re.findall(r"^Print Assumptions (\w+)\.", open(p).read(), re.M)
    blocks = re.split(r"^(?=Closed under the global context|Axioms:)", out, flags=re.M)[1:]
    assert len(blocks) == len(names), (p, len(blocks), len(names))
    for n, b in zip(names, blocks):
        ax = tuple(sorted(re.findall(r"^([A-Z]\w*(?:\.\w+)+)\b", b, re.M)))
        groups.setdefault(ax, []).append(n)
lines = []
for ax in sorted(groups, key=lambda a: (len(a), a)):
    lines.append("* " + ("closed under the global context" if not ax else ", ".join("`%s`" % a for a in ax)) + " (%d theorems): " % len(groups[ax]) + ", ".join(groups[ax]) + ".")
text = "\n".join(lines)
print(text)
if "--write" in sys.argv:
    f = os.path.join(root, "DESIGN.md")
    s = open(f).read()
    s = re.sub(r"(<!-- ASSUMPTIONS -->\n).*?(<!-- END ASSUMPTIONS -->)", lambda m: m.group(1) + text + "\n" + m.group(2), s, flags=re.S)
    open(f, "w").write(s)
