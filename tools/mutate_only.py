#!/usr/bin/env python3
"""Does one property notice the edit by itself?  usage: mutate_only.py LIST.py TARGET1,TARGET2,... [LOG]
As mutate.py, but lemmas of other files whose proofs break are admitted (in the scratch copy only) until the target files
build (SURVIVED) or a proof in a target file fails (KILLED there)."""
import sys, os, re, subprocess, json
root = os.path.dirname(os.path.dirname(os.path.abspath(__file__)))
scratch = os.environ.get("MUT", "/tmp/muto")
ns = {}; exec(open(sys.argv[1]).read(), ns)
targets = sys.argv[2].split(",")
log = sys.argv[3] if len(sys.argv) > 3 else None
subprocess.run(f"rm -rf {scratch}; cp -a {root}/rocq {scratch}", shell=True, check=True)
sh = lambda c: subprocess.run(c, shell=True, cwd=scratch, capture_output=True, text=True)
for t in targets:
    p = f"{scratch}/theories/{t}.v"; s = open(p).read()
    s = re.sub(r"^Example\s+([\w']+).*?\b(?:Qed|Defined)\.\n", "", s, flags=re.S | re.M)
    open(p, "w").write(s)
goal = " ".join(f"theories/{t}.vo" for t in targets)
sh("coq_makefile -f _CoqProject -o Makefile")
r = sh(f"make -j3 {goal}"); assert r.returncode == 0, r.stderr[-2000:]
subprocess.run(f"rm -rf {scratch}.good; cp -a {scratch}/theories {scratch}.good", shell=True, check=True)
for (f, d, old, new, claim) in ns["muts"]:
    f = f if f.endswith(".v") else f + ".v"
    sh(f"rm -rf theories; cp -a {scratch}.good theories")
    p = f"{scratch}/theories/{f}"; s = open(p).read()
    i = re.search(r"(?:Definition|Fixpoint)\s+%s\b" % re.escape(d), s)
    j = s.find(old, i.start()) if i else -1
    if j < 0: print("NOT FOUND", d, old); continue
    open(p, "w").write(s[:j] + new + s[j + len(old):])
    verdict = None; admitted = []
    for _ in range(60):
        r = sh(f"make -j3 {goal}")
        if r.returncode == 0: verdict = ("SURVIVED", ""); break
        m = re.search(r'File "\./theories/(\w+)\.v", line (\d+)', r.stderr)
        if not m: verdict = ("?", r.stderr[-300:]); break
        ff, ln = m.group(1), int(m.group(2))
        q = f"{scratch}/theories/{ff}.v"; lines = open(q).read().split("\n")
        k = ln - 1
        while k >= 0 and not re.match(r"\s*(Theorem|Lemma|Example|Corollary)\s+([\w']+)", lines[k]): k -= 1
        if k < 0: verdict = ("KILLED", f"{ff}: definition at line {ln} no longer typechecks"); break
        name = re.match(r"\s*(?:Theorem|Lemma|Example|Corollary)\s+([\w']+)", lines[k]).group(1)
        if ff in targets: verdict = ("KILLED", name); break
        e = k
        while not re.search(r"\b(Qed|Defined)\.\s*$", lines[e]): e += 1
        blk = "\n".join(lines[k:e + 1])
        b = blk.find("Proof")
        lines[k:e + 1] = [blk[:b] + "Admitted."] + [""] * (e - k)
        open(q, "w").write("\n".join(lines)); admitted.append(name)
    print(verdict, d, "|", claim, "| admitted elsewhere:", admitted, flush=True)
    if log:
        open(log, "a").write(json.dumps({"definition": f"{f}:{d}", "edit": f"{old} -> {new}", "breaks": claim,
            "failed": [" ".join(verdict)] + [f"(elsewhere) {a}" for a in admitted], "tightened": []}) + "\n")
