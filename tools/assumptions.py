#!/usr/bin/env python3
"""What Print Assumptions says for each theorem: python3 tools/assumptions.py  (after the build)."""
import glob, os, re, subprocess, collections
d = os.path.join(os.path.dirname(__file__), "../rocq")
by = collections.OrderedDict()
for f in sorted(glob.glob(d + "/theories/*_props.v")):
    src = open(f).read()
    names = re.findall(r"^Print Assumptions (\S+)\.$", src, re.M)
    thms = re.findall(r"^Theorem (\w+)", src, re.M)
    assert set(thms) <= set(names), (f, set(thms) - set(names))
    os.makedirs("/tmp/assumptions", exist_ok=True)
    out = subprocess.run(["coqc", "-Q", "theories", "Verif", "-o", "/tmp/assumptions/" + os.path.basename(f) + "o", f], cwd=d, capture_output=True, text=True).stdout
    parts = re.split(r"^(?=Closed under the global context|Axioms:)", out, flags=re.M)[1:]
    for n, p in zip(names, parts):
        ax = tuple(sorted(set(re.findall(r"^([A-Z][\w.]*|classic|functional_extensionality_dep)\s*:", p.replace("Axioms:", ""), re.M))))
        by.setdefault(ax, []).append(os.path.basename(f)[:-8] + "." + n)
    print(os.path.basename(f), len(names), len(parts), flush=True)
for ax, ns in by.items():
    print(len(ns), ax or "closed", "" if not ax else ns)
