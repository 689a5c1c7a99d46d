#!/usr/bin/env python3
"""Mutation testing of the model: python3 tools/mutate.py MUTANTS.py [names...]

MUTANTS.py calls M(name, file, definition, old, new, edit, claim, property).  Each mutant is built in
a scratch directory outside /verif; the proof of a lemma that no longer goes through is replaced by
Admitted, so that all the theorems that depend on it are found (by Print Assumptions).  Results are
appended to /tmp/mut/results.jsonl."""
import sys, os, re, subprocess, json, shutil, time
from concurrent.futures import ThreadPoolExecutor
SRC = os.environ.get("MUT_SRC", "/verif/rocq/theories")
ROOT = "/tmp/mut"
OK_AX = ("ClassicalDedekindReals", "FunctionalExtensionality", "functional_extensionality", "classic", "Classical_Prop")

def order():
    return [l.strip()[len("theories/"):] for l in open(os.path.join(SRC, "../_CoqProject")) if l.strip().startswith("theories/")]

def imports(f, cache={}):
    if f not in cache:
        s = open(os.path.join(SRC, f)).read()
        r = set()
        for m in re.finditer(r"From Verif Require\s+(?:Import\s|Export\s)?([^.]*)\.", s):
            r |= {w + ".v" for w in m.group(1).split()}
        cache[f] = r
    return cache[f]

def dependents(f, only=None):
    out = []
    bad = {f}
    for g in order():
        if g == f or imports(g) & bad:
            bad.add(g); out.append(g)
    return out

def needed(fs, targets):
    """the files of fs needed by targets"""
    keep = set(targets)
    for g in reversed(fs):
        if g in keep:
            keep |= imports(g) & set(fs)
    return [g for g in fs if g in keep]

def blocks(b):
    return [(m.start(), m.end()) for m in re.finditer(rb"\bProof\.[\s\S]*?\b(?:Qed|Defined|Admitted)\.", b)]

def coqc(d, f, timeout):
    t0 = time.time()
    try:
        p = subprocess.run(["coqc", "-Q", ".", "Verif", f], cwd=d, capture_output=True, timeout=timeout)
        return p.returncode, p.stdout.decode(errors="replace"), p.stderr
    except subprocess.TimeoutExpired:
        with open(os.path.join(d, "t.out"), "wb") as o:
            p = subprocess.Popen(["coqc", "-time", "-Q", ".", "Verif", f], cwd=d, stdout=o, stderr=subprocess.DEVNULL)
            try: p.wait(timeout)
            except subprocess.TimeoutExpired: p.kill(); p.wait()
        cs = re.findall(rb"^Chars (\d+) - (\d+)", open(os.path.join(d, "t.out"), "rb").read(), re.M)
        return -1, int(cs[-1][1]) + 1 if cs else 0, b""

def err_offset(b, err):
    m = re.search(rb'File "[^"]*", line (\d+), characters (\d+)-(\d+):\s*\n(?:Error|.*\n*Error)', err)
    ms = list(re.finditer(rb'File "[^"]*", line (\d+), characters (\d+)-(\d+):', err))
    if not ms: return -1
    m = ms[-1]
    line, ch = int(m.group(1)), int(m.group(2))
    off = 0
    for _ in range(line - 1):
        off = b.index(b"\n", off) + 1
    return off + ch

def name_before(b, start):
    ms = re.findall(rb"(?:Lemma|Theorem|Example|Definition|Fact|Corollary|Remark|Instance|Fixpoint)\s+([A-Za-z0-9_']+)", b[:start])
    return ms[-1].decode() if ms else "?"

def run(mu):
    name = mu["name"]
    d = os.path.join(ROOT, name)
    shutil.rmtree(d, ignore_errors=True)
    shutil.copytree(SRC, d, copy_function=os.link, ignore=shutil.ignore_patterns(".*", "*.glob"))
    p = os.path.join(d, mu["file"])
    s = open(p).read()
    if s.count(mu["old"]) != 1:
        shutil.rmtree(d); return dict(mu, status="old text occurs %d times" % s.count(mu["old"]))
    os.unlink(p); open(p, "w").write(s.replace(mu["old"], mu["new"]))
    deps = dependents(mu["file"])
    mod = mu["file"].split("_")[0]
    targets = mu.get("targets") or [mod + "_props.v"]
    todo = needed(deps, targets)
    if todo[0] != mu["file"]:
        todo = [mu["file"]] + [g for g in todo if g != mu["file"]]
    admitted, failed, held = {}, [], []
    status = "ok"
    for f in todo:
        fp = os.path.join(d, f)
        b = open(fp, "rb").read()
        if f != mu["file"]:
            os.unlink(fp); open(fp, "wb").write(b)
        vo = fp[:-2] + ".vo"
        for x in (".vo", ".vok", ".vos"):
            if os.path.exists(fp[:-2] + x): os.unlink(fp[:-2] + x)
        while True:
            rc, out, err = coqc(d, f, mu.get("timeout", 60))
            if rc == 0: break
            off = out if rc == -1 else err_offset(b, err)
            hit = [(x, y) for x, y in blocks(b) if x <= off <= y]
            if not hit:
                status = "error outside a proof in %s: %s" % (f, err.decode(errors="replace")[-300:]); break
            x, y = hit[0]
            nm = name_before(b, x)
            admitted[nm] = f
            b = b[:x] + b"Proof. Admitted." + b[y:]
            open(fp, "wb").write(b)
        if status != "ok": break
        if f.endswith("_props.v"):
            names = re.findall(r"^Print Assumptions ([A-Za-z0-9_']+)\.", b.decode(), re.M)
            parts = re.split(r"(?m)^(?=Closed under the global context|Axioms:|Section Variables:)", out)
            parts = [q for q in parts if q.startswith(("Closed", "Axioms", "Section"))]
            if len(parts) != len(names): status = "cannot read the assumptions of " + f; break
            for n, q in zip(names, parts):
                ax = re.findall(r"(?m)^([A-Za-z0-9_'.]+)\s*(?::|$)", q.split("\n", 1)[1] if "\n" in q else "")
                bad = [a for a in ax if not a.startswith(OK_AX)]
                (failed if bad else held).append(n)
    shutil.rmtree(d, ignore_errors=True)
    return dict(mu, status=status, failed=failed, held=held, admitted=admitted)

MUT = []
def M(name, file, definition, old, new, edit, claim, prop, **kw):
    MUT.append(dict(name=name, file=file, definition=definition, old=old, new=new, edit=edit, claim=claim, property=prop, **kw))

if __name__ == "__main__":
    os.makedirs(ROOT, exist_ok=True)
    exec(compile(open(sys.argv[1]).read(), sys.argv[1], "exec"))
    want = sys.argv[2:]
    todo = [m for m in MUT if not want or m["name"] in want]
    with ThreadPoolExecutor(4) as ex:
        for r in ex.map(run, todo):
            with open(os.path.join(ROOT, "results.jsonl"), "a") as o: o.write(json.dumps(r) + "\n")
            print("%s [%s] %s\n   failed: %s\n   held: %s\n   admitted: %s" % (r["name"], r["property"], r["status"] if r["status"] != "ok" else r["edit"],
                  " ".join(r.get("failed", [])), " ".join(r.get("held", [])), " ".join(r.get("admitted", {}))), flush=True)
