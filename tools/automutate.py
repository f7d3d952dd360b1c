#!/usr/bin/env python3
"""Systematic small edits of the model files: every mutant under which the whole development still builds is a survivor.
usage: MUTBASE=built copy of rocq/  MUTWORK=scratch  automutate.py [seed] > results"""
import os, re, sys, json, random, subprocess, shutil
BASE = os.environ["MUTBASE"]; WORK = os.environ["MUTWORK"]
FILES = os.environ.get("MUTFILES", "Frame World WebSocket AsyncWebSocket Sha1 Base64 Handshake Lifecycle Concurrent Server ThreadServer Threads Process Coroutines").split()
def code_mask(s):
    """positions inside comments are False"""
    m = [True] * len(s); d = 0; i = 0
    while i < len(s):
        if s.startswith("(*", i): d += 1; m[i] = m[i+1] = False; i += 2; continue
        if s.startswith("*)", i): d -= 1; m[i] = m[i+1] = False; i += 2; continue
        if d: m[i] = False
        i += 1
    return m
def defs(s, m):
    """spans of Definition/Fixpoint sentences"""
    out = []
    for x in re.finditer(r"(?m)^\s*(?:Definition|Fixpoint|with)\s+(\w+)", s):
        if not m[x.start(1)]: continue
        e = x.end()
        while True:
            e = s.find(".", e)
            if e < 0: break
            if m[e] and (e + 1 == len(s) or s[e+1] in " \n"): break
            e += 1
        if e > 0: out.append((x.group(1), x.end(), e))
    return out
OPS = [
 (r"(?<![<=>])<\?", ["<=?"]), (r"<=\?", ["<?"]), (r"(?<![<>])=\?", ["<=?"]),
 (r"&&", ["||"]), (r"\|\|", ["&&"]), (r"\bnegb ", [""]), (r"\btrue\b", ["false"]), (r"\bfalse\b", ["true"]),
 (r"(?<![\w.%])\d+(?![\w.])", ["+1"]), (r" \+ ", [" - "]), (r" - ", [" + "]),
 (r"\bif ((?:(?!\bthen\b|\bif\b)[^\n])+) then\b", ["IFNEG"]), (r"(?m)^[^\n]*?;;;[ ]*$", ["DROP"]), (r"(\w+) \+\+ (\w+)", ["SWAP"]),
 (r"\b[a-zA-Z]\w*'(?=[\s);,])", ["UNPRIME"]), (r"\bDone\b", ["Raised"]), (r"\bRaised\b", ["Done"]), (r"\bADone\b", ["AWait"]), (r"\bRunning\b", ["Asked"]),
 (r"\bRet\b", ["Throw"]), (r"\bNone\b", ["NONE"]), (r"\bset_\w+ ", ["SETDROP"]),
]
def mutants():
    res = []
    for f in FILES:
        s = open(f"{BASE}/theories/{f}.v").read(); m = code_mask(s)
        for name, a, b in defs(s, m):
            body = s[a:b]; here = []
            for pat, reps in OPS:
                for x in re.finditer(pat, body):
                    if not m[a + x.start()]: continue
                    for r in reps:
                        t = x.group(0)
                        if r == "+1": n = str(int(t) + 1)
                        elif r == "IFNEG": n = f"if negb ({x.group(1)}) then"
                        elif r == "DROP": n = ""
                        elif r == "UNPRIME": n = t[:-1]
                        elif r == "SWAP": n = f"{x.group(2)} ++ {x.group(1)}"
                        elif r == "NONE" or r == "SETDROP": continue
                        else: n = r
                        here.append((f, name, a + x.start(), t, n))
            res.append(here)
    return res
def sh(c, t=1500):
    try: return subprocess.run(c, shell=True, capture_output=True, text=True, timeout=t)
    except subprocess.TimeoutExpired: return None
def main():
    random.seed(int(sys.argv[1]) if len(sys.argv) > 1 else 1)
    per = int(sys.argv[2]) if len(sys.argv) > 2 else 6
    if "-n" in sys.argv: print(sum(len(h) for h in mutants()), sum(min(len(h), per) for h in mutants())); return
    todo = []
    for h in mutants():
        random.shuffle(h); todo += h[:per]
    random.shuffle(todo)
    R = f"{WORK}/rocq"; num = 0
    seen = set()
    if os.path.exists(f"{WORK}/res.jsonl"):
        for l in open(f"{WORK}/res.jsonl"):
            x = json.loads(l); seen.add((x["file"], x["def"], x["line"], x["from"], x["to"]))
    for f, name, pos, t, n in todo:
        num += 1
        shutil.rmtree(R, ignore_errors=True); R = f"{WORK}/rocq{num}"; sh(f"mkdir -p {WORK}; cp -a {BASE} {R}")
        p = f"{R}/theories/{f}.v"; s = open(p).read()
        open(p, "w").write(s[:pos] + n + s[pos+len(t):])
        line = s.count("\n", 0, pos) + 1
        if (f, name, line, t, n) in seen: continue
        r = sh(f"cd {R} && ulimit -v 6000000; make -j2 > log 2>&1; grep -m1 -A12 '^File\\|Error' log")
        out = "timeout" if r is None else r.stdout
        g = re.search(r"theories/(\w+)\.v", out)
        where = g.group(1) if g else ("SURVIVED" if not out.strip() else "?" + out[:100])
        if where == f: where = "INVALID"
        lm = re.search(r'line (\d+)', out)
        print(json.dumps({"file": f, "def": name, "line": line, "text": s.split("\n")[line-1].strip(), "from": t, "to": n, "killed": where, "at": lm.group(1) if lm else None}), flush=True)
main()
