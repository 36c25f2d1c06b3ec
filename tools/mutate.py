#!/usr/bin/env python3
"""Tests the theorems against wrong programs.  mutate.py MUTANTS.json
Each mutant: {"file","definition","old","new","edit","breaks"}.  In a scratch copy of rocq/ (outside /verif) the edit is made and
everything rebuilt.  A lemma whose proof fails is admitted there and the build resumed, so that afterwards Print Assumptions tells
which property theorems rest on a lemma that no longer holds.  One JSON line per mutant is appended to seeded/LOG.jsonl."""
import json, os, re, shutil, subprocess, sys
ROOT = os.path.dirname(os.path.dirname(os.path.abspath(__file__)))
BASE, WORK = "/tmp/mut/base", "/tmp/mut/work"
JOBS = os.environ.get("JOBS", "2")

def sh(cmd, cwd, t=3000):
    return subprocess.run(cmd, shell=True, cwd=cwd, stdout=subprocess.PIPE, stderr=subprocess.STDOUT, text=True, timeout=t).stdout

def soften(path):
    """Examples are tests of the hypotheses, not claims: admit them in the scratch copy."""
    s = open(path).read()
    s = re.sub(r"^(Example [A-Za-z0-9_']+.*?)\nProof\..*?\n?(?:Qed|Defined)\.", r"\1\nAdmitted.", s, flags=re.S | re.M)
    s = re.sub(r"^(Lemma \w+_feasible :.*?)\nProof\..*?\n?Qed\.", r"\1\nAdmitted.", s, flags=re.S | re.M)
    open(path, "w").write(s)

def prepare():
    if os.path.exists(BASE):
        shutil.rmtree(BASE)
    os.makedirs(BASE)
    sh("git archive HEAD rocq | tar -x -C %s" % BASE, ROOT)
    d = BASE + "/rocq"
    for f in os.listdir(d + "/theories"):
        if f.endswith(".v"):
            soften(d + "/theories/" + f)
    out = sh("coq_makefile -f _CoqProject -o Makefile && make -j4 2>&1", d)
    if "Error" in out:
        sys.exit(out[-3000:])

def admit(path, line):
    s = open(path).read()
    pos = sum(len(l) + 1 for l in s.split("\n")[:line - 1])
    heads = [m for m in re.finditer(r"^\s*(?:#\[[^\]]*\]\s*)?(?:Local |Global )?(?:Lemma|Theorem|Corollary|Example|Fact|Remark)\s+([A-Za-z0-9_']+)", s, re.M) if m.start() <= pos + 200 and s.count("\n", 0, m.start(1)) + 1 <= line]
    if not heads:
        return None
    h = heads[-1]
    p = s.find("Proof", h.end())
    q = re.compile(r"\b(Qed|Defined)\.").search(s, p)
    if p < 0 or not q or s.count("\n", 0, q.end()) + 1 < line:
        return None
    open(path, "w").write(s[:p] + "Admitted." + s[q.end():])
    return h.group(1)

def run(m):
    if os.path.exists(WORK):
        shutil.rmtree(WORK)
    sh("cp -a %s %s" % (BASE, WORK), "/tmp")
    d = WORK + "/rocq"
    path = d + "/theories/" + m["file"]
    s = open(path).read()
    if s.count(m["old"]) < 1:
        return {"error": "pattern not found"}
    i = s.find(m.get("after", "")) if m.get("after") else 0
    j = s.find(m["old"], i)
    s = s[:j] + m["new"] + s[j + len(m["old"]):]
    open(path, "w").write(s)
    failed, stuck, where = [], None, set()
    for _ in range(40):
        out = sh("timeout 900 make -k -j%s 2>&1" % JOBS, d)
        errs = re.findall(r'File "\./theories/(\w+\.v)", line (\d+), characters [\d-]+:\s*\n\s*Error', out)
        if not errs:
            if re.search(r"^(Error:|make.*Error \d)", out, re.M):
                stuck = "build stopped: " + out[-300:]
            break
        progress = False
        for f, l in dict(errs).items():
            n = admit(d + "/theories/" + f, int(l))
            if n:
                failed.append(n); progress = True; where.add(f[:-2])
            else:
                stuck = "%s line %s cannot be skipped" % (f, l)
        if not progress:
            break
    props = []
    if stuck is None:
        claims = json.load(open(ROOT + "/MANIFEST.json"))["claims"]
        src = "".join(open(d + "/theories/" + f).read() for f in os.listdir(d + "/theories") if f.endswith(".v"))
        ths = sorted({t for c in claims for t in c["theorems"] if re.search(r"(Theorem|Corollary|Lemma)\s+%s\b" % re.escape(t), src)})
        # only theorems of files that use one of the files with a failed proof can be affected
        uses = {}
        for f in os.listdir(d + "/theories"):
            if f.endswith(".v"):
                t = open(d + "/theories/" + f).read()
                uses[f[:-2]] = set(w for r in re.findall(r"From Verif Require Import ([^.]*)\.", t) for w in r.split())
        hit = set(where)
        while True:
            more = {f for f in uses if f not in hit and uses[f] & hit}
            if not more: break
            hit |= more
        files = sorted(f for f in hit if f.startswith("Props"))
        src = "".join(open(d + "/theories/" + f + ".v").read() for f in files)
        ths = [t for t in ths if re.search(r"(Theorem|Corollary|Lemma)\s+%s\b" % re.escape(t), src)]
        chk = "From Coq Require Import String. From Verif Require Import %s.\nOpen Scope string_scope.\n" % " ".join(files)
        for t in ths:
            chk += 'Eval compute in "MARK %s".\nPrint Assumptions %s.\n' % (t, t)
        open(d + "/Chk.v", "w").write(chk)
        out = sh("timeout 1500 coqc -Q theories Verif Chk.v 2>&1", d) if files else ""
        for part in out.split('= "MARK ')[1:]:
            t = part.split('"')[0]
            if any(re.search(r"(^|\s|\.)%s\s*:" % re.escape(f), part) for f in failed) or t in failed:
                props.append(t)
    props = sorted(set(props) | {t for t in failed if re.match(r"C\d\d_", t) and not t.endswith(("_case", "_applies"))})
    return {"lemmas": failed, "theorems": props, "stuck": stuck}

def main():
    muts = json.load(open(sys.argv[1]))
    if not os.path.exists(BASE) or "--fresh" in sys.argv:
        prepare()
    for m in muts:
        r = run(m)
        e = {"definition": "%s %s" % (m["file"], m["definition"]), "edit": m["edit"], "old": m["old"], "new": m["new"], "claim_broken": m["breaks"],
             "theorems_failed": r.get("theorems", []), "supporting_lemmas_failed": r.get("lemmas", []), "theorems_tightened": []}
        if r.get("stuck"): e["note"] = r["stuck"]
        if r.get("error"): e["note"] = r["error"]
        print(json.dumps(e), flush=True)
        if not r.get("error"):
            open(os.environ.get("OUT", ROOT + "/seeded/LOG.jsonl"), "a").write(json.dumps(e) + "\n")
main()
