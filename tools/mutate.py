#!/usr/bin/env python3
"""Mutation harness (step 5 of the task). Works on a scratch copy of /verif/rocq in /tmp/mut.
usage: mutate.py mutants.json [id...]
Each mutant: {id, file, old, new, claim}. Proofs that no longer go through are replaced by Admitted in the scratch copy
and the build goes on, so that Print Assumptions tells which manifest theorems depend on a failed proof."""
import json, os, re, subprocess, sys, shutil
BASE, WORK = os.environ.get("MUTBASE", "/verif/rocq"), os.environ.get("MUTWORK", "/tmp/mut")
MUT = WORK + "/rocq"
START = re.compile(r"^\s*(Local |Global |#\[[a-z]*\] )?(Lemma|Theorem|Example|Corollary|Remark|Fact|Proposition)\s+(\w+)")
ANY = re.compile(r"^\s*(Local |Global )?(Definition|Fixpoint|Inductive|Record|Instance)\s+(\w+)")

def sh(cmd, **k):
    return subprocess.run(cmd, shell=True, stdout=subprocess.PIPE, stderr=subprocess.STDOUT, text=True, **k).stdout

def admit(path, line):
    L = open(path).read().split("\n")
    i = line - 1
    # the error may be reported in the statement or the proof
    while i >= 0 and not START.match(L[i]):
        if ANY.match(L[i]) and i != line - 1: pass
        i -= 1
    if i < 0: return None
    name = START.match(L[i]).group(3)
    # find Proof and Qed
    j = i
    while j < len(L) and not re.search(r"\b(Qed|Defined)\.\s*$", L[j]): j += 1
    if j < line - 1: return None          # error lies outside of a proof
    txt = "\n".join(L[i:j+1])
    m = re.search(r"^\s*Proof\.|Proof\.", txt)
    if not m: return None
    L[i:j+1] = (txt[:m.start()] + "Admitted.").split("\n")
    open(path, "w").write("\n".join(L))
    return name

def run(mu, theorems):
    sh(f"rm -rf {MUT} && mkdir -p {WORK} && cp -a {BASE} {MUT}")
    p = f"{MUT}/theories/{mu['file']}.v"
    s = open(p).read()
    n = s.count(mu["old"])
    if n != mu.get("count", 1):
        return {"error": f"old text occurs {n} times"}
    open(p, "w").write(s.replace(mu["old"], mu["new"]))
    failed, fatal = [], None
    for rnd in range(60):
        out = sh(f"cd {MUT} && ulimit -v 6000000; make -k -j4 COQC='timeout 900 coqc' COQEXTRAFLAGS='-set \"Default Timeout=60\"' 2>&1")
        errs = re.findall(r'File "\./(theories/\w+\.v)", line (\d+), characters [\d-]+:\s*\n(?:Error|In environment)', out)
        if not errs:
            if "Error" in out:
                fatal = out[-600:]
            break
        seen = set(); stuck = False
        for f, l in errs:
            if f in seen: continue
            seen.add(f)
            nm = admit(f"{MUT}/{f}", int(l))
            if nm is None:
                fatal = f"{f}:{l} " + out[out.find(f):][:400]; stuck = True
            else:
                failed.append(f"{os.path.basename(f)[:-2]}.{nm}")
        if stuck: break
    tainted = []
    if not fatal:
        mods = [os.path.basename(x)[:-2] for x in re.findall(r"theories/\S+\.v", open(f"{BASE}/_CoqProject").read())]
        src = "From Verif Require " + " ".join(mods) + ".\n"
        for t, mod in theorems:
            src += f'Redirect "{WORK}/pa_{t}" Print Assumptions {mod}.{t}.\n'
        open(f"{WORK}/Check.v", "w").write(src)
        o = sh(f"cd {WORK} && coqc -Q rocq/theories Verif Check.v 2>&1")
        for t, mod in theorems:
            try: r = open(f"{WORK}/pa_{t}.out").read()
            except OSError: tainted.append("?" + t); continue
            os.remove(f"{WORK}/pa_{t}.out")
            if "Closed under" not in r: tainted.append(t)
    return {"failed": failed, "fatal": fatal, "tainted": tainted}

def main():
    muts = json.load(open(sys.argv[1]))
    only = set(sys.argv[2:])
    names = [t for c in json.load(open("/verif/MANIFEST.json"))["claims"] for t in c["theorems"]]
    where = {}
    for f in os.listdir(BASE + "/theories"):
        if f.endswith(".v"):
            for m in re.finditer(r"(?m)^(?:Theorem|Lemma)\s+(\w+)", open(f"{BASE}/theories/{f}").read()):
                where.setdefault(m.group(1), f[:-2])
    theorems = [(t, where[t]) for t in dict.fromkeys(names) if t in where]  # the base may be older than MANIFEST
    for mu in muts:
        if only and mu["id"] not in only: continue
        r = run(mu, theorems)
        r["id"] = mu["id"]; r["claim"] = mu["claim"]
        print(json.dumps(r), flush=True)
main()
