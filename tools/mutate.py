#!/usr/bin/env python3
"""Mutation testing of the theorems.  usage: mutate.py LIST.py [LOG]
LIST.py defines muts = [(file, definition, old, new, claim), ...].  Each edit is applied in a scratch copy outside
/verif, everything depending on the file is rebuilt, and the theorems whose proof fails are reported."""
import sys, os, re, subprocess, json, shutil
root = os.path.dirname(os.path.dirname(os.path.abspath(__file__)))
scratch = os.environ.get("MUT", "/tmp/mut")
ns = {}
exec(open(sys.argv[1]).read(), ns)
log = sys.argv[2] if len(sys.argv) > 2 else None
ns["muts"] = [((f if f.endswith(".v") else f + ".v"), d, o, n, c) for (f, d, o, n, c) in ns["muts"]]
# LEAF=A,B,...: build and clean only these files (all that depend on the edited ones), relying on the compiled files in /verif/rocq
leaf = [x for x in os.environ.get("LEAF", "").split(",") if x]
goal = " ".join(f"theories/{x}.vo" for x in leaf)
subprocess.run(["rsync", "-a", "--delete", f"{root}/rocq/", f"{scratch}/"], check=False) if shutil.which("rsync") else subprocess.run(f"rm -rf {scratch}; cp -a {root}/rocq {scratch}", shell=True, check=True)
sh = lambda c: subprocess.run(c, shell=True, cwd=scratch, capture_output=True, text=True)
# The checks on literals must not count: the *Tests.v files are left out, and so is every Example no proof uses.
pj = open(f"{scratch}/_CoqProject").read()
open(f"{scratch}/_CoqProject", "w").write("\n".join(l for l in pj.split("\n") if not l.endswith("Tests.v")))
names = [l[9:] for l in pj.split("\n") if l.startswith("theories/") and not l.endswith("Tests.v")]
text = {n: open(f"{scratch}/theories/{n}").read() for n in names}
ex = re.compile(r"^Example\s+([\w']+).*?\b(?:Qed|Defined)\.\n", re.S | re.M)
for n in ([x + '.v' for x in leaf] or names):
    def cut(m):
        used = sum(len(re.findall(r"\b%s\b" % re.escape(m.group(1)), t)) for t in text.values())
        return "" if used == 1 else m.group()
    new = ex.sub(cut, text[n])
    if new != text[n]: open(f"{scratch}/theories/{n}", "w").write(new)
sh("coq_makefile -f _CoqProject -o Makefile")
r = sh(f"make -j3 {goal}")
assert r.returncode == 0, r.stderr[-2000:]
subprocess.run(f"rm -rf {scratch}.good; cp -a {scratch}/theories {scratch}.good", shell=True, check=True)
def enclosing(path, line):
    name = None
    for i, l in enumerate(open(path), 1):
        m = re.match(r"\s*(?:Theorem|Lemma|Example|Corollary|Definition|Fixpoint|Record)\s+([\w']+)", l)
        if m: name = m.group(1)
        if i >= line: break
    return name
for (f, d, old, new, claim) in ns["muts"]:
    p = f"{scratch}/theories/{f}"
    src = open(p).read()
    if src.count(old) != 1:
        print("SKIP", f, d, "occurrences:", src.count(old)); continue
    before = {x: os.path.getmtime(f"{scratch}/theories/{x}") for x in os.listdir(f"{scratch}/theories") if x.endswith(".vo")}
    open(p, "w").write(src.replace(old, new))
    r = sh(f"make {os.environ.get('KEEP', '')} -j2 COQC='prlimit --as=7000000000 timeout 600 coqc' {goal} 2>&1")  # KEEP=-k: go on after the first failure
    errs = re.findall(r'File "\./theories/(\w+\.v)", line (\d+)', r.stdout)
    failed = []
    for (ef, ln) in errs:
        n = enclosing(f"{scratch}/theories/{ef}", int(ln))
        if n and f"{ef}:{n}" not in failed: failed.append(f"{ef[:-2]}.{n}")
    failed += [f"{x} (no proof found in 10 minutes)" for x in re.findall(r"theories/(\w+)\.vo\] Error 124", r.stdout)]
    broken = sorted(x[:-3] for x in before if not os.path.exists(f"{scratch}/theories/{x}") or False)
    # files that were not rebuilt depend on the failed ones
    props = sorted({t for ff in os.listdir(f"{scratch}/theories") if ff.endswith("Props.v") and not os.path.exists(f"{scratch}/theories/{ff}o") or ff in [e[0] for e in errs] for t in re.findall(r"^Theorem\s+(C\d+)_", open(f"{scratch}/theories/{ff}").read(), re.M)}) if errs else []
    verdict = "KILLED" if failed else ("BUILD-ERROR" if r.returncode else "SURVIVED")
    print(verdict, f, d, "->", ", ".join(failed), flush=True)
    if verdict == "BUILD-ERROR": print(r.stdout[-500:])
    if log:
        with open(log, "a") as o:
            o.write(json.dumps({"definition": f"{f}:{d}", "edit": f"{old}  =>  {new}", "breaks": claim, "failed": failed, "tightened": []}) + "\n")
    subprocess.run(f"cp -a {scratch}.good/. {scratch}/theories/", shell=True, check=True)
    r = sh(f"make -k -j3 {goal} 2>&1")
    assert r.returncode == 0, "restore failed"
