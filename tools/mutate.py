#!/usr/bin/env python3
"""Mutation testing of the theorems, in a scratch copy outside /verif.

usage: mutate.py MUTANTS.json OUT.jsonl [worker count]

MUTANTS.json: list of {"id","file","definition","old","new","edit","claim"}.
For every mutant the model file is edited in a copy of /verif/rocq, everything
that depends on it is recompiled, and each proof that no longer checks is
replaced by Admitted so that compilation can go on.  A theorem counts as failed
if Print Assumptions shows that it rests on such a proof.
"""
import json, os, re, shutil, subprocess, sys, threading, time, signal
BASE = os.environ.get("MUTBASE", "/root/mut/base")
START = re.compile(rb"^[ \t]*(?:Global |Local |#\[[^\]]*\] *)?(Lemma|Theorem|Example|Corollary|Fact|Remark|Proposition|Instance)\s+([\w']+)", re.M)
END = re.compile(rb"\b(Qed|Defined)\.")

def deps(d):
    files = [l.strip() for l in open(d + "/_CoqProject") if l.strip().endswith(".v")]
    out = subprocess.run(["coqdep", "-Q", "theories", "Verif"] + files, cwd=d, capture_output=True, text=True).stdout
    g = {}
    for line in out.splitlines():
        m = re.match(r"(\S+\.vo)\b[^:]*: (.*)", line)
        if m:
            g[m.group(1)[:-1]] = [x[:-1] for x in m.group(2).split() if x.endswith(".vo") and x.startswith("theories")]
    return files, g

def proof_at(src, pos):
    """(name, kind, start of proof body, end) of the proof around byte pos"""
    cand = [m for m in START.finditer(src) if m.start() <= pos]
    if not cand: return None
    m = cand[-1]
    p = re.search(rb"\bProof\b[^.]*\.", src[m.end():])
    if not p: return None
    b = m.end() + p.end()
    e = END.search(src, b)
    if not e or pos > e.end(): return None
    return m.group(2).decode(), m.group(1).decode(), b, e.end(), e.group(1).decode(), m.end() + p.start()

def compile1(d, f, limit):
    cmd = ["nice", "-n", "5", "bash", "-c", "ulimit -v 7000000; exec coqc -q -time -Q theories Verif " + f]
    p = subprocess.Popen(cmd, cwd=d, stdout=subprocess.PIPE, stderr=subprocess.PIPE, start_new_session=True)
    try:
        o, e = p.communicate(timeout=limit)
        return p.returncode, o, e
    except subprocess.TimeoutExpired:
        os.killpg(p.pid, signal.SIGKILL)
        o, e = p.communicate()
        return "timeout", o, e

def build(d, f, limit, res):
    """compile f, admitting what fails"""
    path = d + "/" + f
    while True:
        if res["stop"]: return
        rc, o, e = compile1(d, f, limit)
        if rc == 0: break
        src = open(path, "rb").read()
        if rc == "timeout":
            ends = [int(m.group(2)) for m in re.finditer(rb"^Chars (\d+) - (\d+) ", o, re.M)]
            pos = (ends[-1] if ends else 0) + 3
            why = "timeout"
        else:
            m = re.search(rb'File "[^"]*", line (\d+), characters (\d+)-(\d+):\n', e)
            if not m:
                res["stop"] = "cannot parse error in %s: %s" % (f, e[-300:]); return
            line, ch = int(m.group(1)), int(m.group(2))
            pos = sum(len(l) for l in src.split(b"\n")[:line-1]) + line - 1 + ch
            why = e[m.end():m.end()+200].decode("utf8", "replace")
        pr = proof_at(src, pos)
        if not pr or pr[4] == "Defined" or pos < pr[5]:
            res["stop"] = "%s:%s not in a proof: %s" % (f, pos, why); return
        res["admitted"].append((f, pr[0], pr[1], why.strip()[:120]))
        open(path, "wb").write(src[:pr[2]] + b" Admitted. " + b"\n" * src[pr[2]:pr[3]].count(b"\n") + src[pr[3]:])
    block, src = [], open(path, "rb").read()
    for line in o.decode("utf8", "replace").splitlines():
        m = re.match(r"Chars (\d+) - (\d+) ", line)
        if m:
            k = re.match(r"Print Assumptions ([\w']+)\.", src[int(m.group(1)):int(m.group(2))].decode())
            if k: res["assum"][k.group(1)] = "\n".join(block)
            block = []
        else: block.append(line)

def build_cone(d, dirty, workers, times, budget=2400):
    files, g = deps(d)
    cone, changed = set(dirty), True
    while changed:
        changed = False
        for f in files:
            if f not in cone and any(x in cone for x in g[f]):
                cone.add(f); changed = True
    res = {"admitted": [], "assum": {}, "stop": None}
    done, running, lock = set(), {}, threading.Lock()
    t0 = time.time()
    def work(f):
        s = time.time()
        build(d, f, times.get(f, 60) * 4 + 60, res)
        times.setdefault(f, time.time() - s)
        with lock: done.add(f); running.pop(f, None)
    while len(done) < len(cone) and not res["stop"]:
        if time.time() - t0 > budget: res["stop"] = "budget"
        with lock:
            for f in files:
                if len(running) >= workers: break
                if f in cone and f not in done and f not in running and all(x in done or x not in cone for x in g[f]):
                    running[f] = threading.Thread(target=work, args=(f,)); running[f].start()
        time.sleep(0.2)
    for t in list(running.values()): t.join()
    return res

def main():
    muts = json.load(open(sys.argv[1])); out = sys.argv[2]; workers = int(sys.argv[3]) if len(sys.argv) > 3 else 2
    tf = "/root/mut/times.json"
    times = json.load(open(tf)) if os.path.exists(tf) else {}
    ids = set()
    if os.path.exists(out): ids = {json.loads(l)["id"] for l in open(out)}
    for m in muts:
        if m["id"] in ids: continue
        d = os.environ.get("MUTWORK", "/root/mut/work"); shutil.rmtree(d, ignore_errors=True)
        subprocess.run(["cp", "-a", BASE, d])
        path = d + "/theories/" + m["file"]
        t = open(path).read()
        edits = m["edits"] if "edits" in m else [[m["old"], m["new"]]]
        ok = True
        for o, n in edits:
            if t.count(o) != 1: print("BAD", m["id"], t.count(o), o[:60]); ok = False; break
            t = t.replace(o, n)
        if not ok: continue
        open(path, "w").write(t)
        s = time.time()
        res = build_cone(d, ["theories/" + m["file"]], workers, times)
        json.dump(times, open(tf, "w"))
        adm = {n for _, n, _, _ in res["admitted"]}
        failed = sorted(k for k, a in res["assum"].items() if any(re.search(r"(^|\.)%s\b" % re.escape(x), l) for l in a.splitlines() for x in adm))
        r = {"id": m["id"], "failed": failed, "admitted": res["admitted"], "stop": res["stop"], "secs": round(time.time() - s), "checked": len(res["assum"]), "mutant": m}
        open(out, "a").write(json.dumps(r) + "\n")
        print(m["id"], "failed", len(failed), "of", len(res["assum"]), res["stop"], r["secs"], flush=True)
main()
