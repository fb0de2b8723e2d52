#!/usr/bin/env python3
"""Run wrong programs against the theorems.

usage: mutate.py mutants.py [first-id]

mutants.py defines M = [(name, file, old, new, claim, expected_properties), ...]; `file` is relative to theories/.
Every mutant is built in a scratch copy of rocq/ (default /tmp/mut).  A proof that fails is replaced by Admitted there, and
the build goes on, so that at the end the property theorems that depend on a failed proof (or fail themselves) are known.
With MUTNARROW=1 only the files of the expected properties are built and asked.
One JSON line per mutant is printed and appended to the file given by MUTLOG (default /verif/seeded/LOG.jsonl).
"""
import json, os, re, shutil, subprocess, sys

SRC = os.environ.get("MUTSRC", "/verif/rocq")
DST = os.environ.get("MUTDIR", "/tmp/mut")
LOG = os.environ.get("MUTLOG", "/verif/seeded/LOG.jsonl")
TO = os.environ.get("MUTTO", "60")
NARROW = os.environ.get("MUTNARROW") == "1"


def sh(cmd, **kw):
    return subprocess.run(cmd, shell=True, stdout=subprocess.PIPE, stderr=subprocess.STDOUT, text=True, **kw).stdout


def fresh():
    shutil.rmtree(DST, ignore_errors=True)
    sh(f"cp -a {SRC} {DST}")


HEAD = re.compile(r"^\s*(?:Local |Global )?(?:Lemma|Theorem|Example|Corollary|Fact|Remark|Proposition|Instance|Definition|Fixpoint)\s+(\w+)")


def admit(path, line):
    """Replace the proof around `line` (1-based) by Admitted; gives the name, or None."""
    ls = open(path).read().split("\n")
    i = min(line - 1, len(ls) - 1)
    s = i
    while s >= 0 and not HEAD.match(ls[s]):
        s -= 1
    if s < 0:
        return None
    name = HEAD.match(ls[s]).group(1)
    e = s
    while e < len(ls) and not re.search(r"\b(Qed|Defined|Admitted)\.", ls[e]):
        e += 1
    if e >= len(ls) or "Admitted." in ls[e]:
        return None
    # where the statement ends
    p = s
    while p <= e and "Proof." not in ls[p]:
        p += 1
    if p > e:
        return None
    k = ls[p].index("Proof.")
    tail = re.split(r"\b(?:Qed|Defined)\.", ls[e])[-1]
    ls[p] = ls[p][:k] + "Proof. Admitted." + (tail if p == e else "")
    for q in range(p + 1, e + 1):
        ls[q] = ""
    if e > p:
        ls[e] = tail
    open(path, "w").write("\n".join(ls))
    return name


def props_files(expect):
    """The files with the theorems of these properties; all of them unless narrow."""
    d = f"{DST}/theories/Props"
    fs = sorted(f for f in os.listdir(d) if f.endswith(".v"))
    if NARROW:
        fs = [f for f in fs if any(re.search(rf"^Theorem {e}_", open(f"{d}/{f}").read(), re.M) for e in expect)]
    return fs


def build(files):
    targets = " ".join(f"theories/Props/{f}o" for f in files) if NARROW else ""
    broken = []
    stuck = []
    for _ in range(400):
        out = sh(f"cd {DST} && make -k -j3 {targets} TIMECMD='timeout 600' COQEXTRAFLAGS=\"-set 'Default Timeout={TO}'\" 2>&1")
        locs = {}
        for m in re.finditer(r'File "\./(theories/[\w/]+\.v)", line (\d+), characters [\d-]+:\s*\n(Error|Timeout)', out):
            locs.setdefault(m.group(1), int(m.group(2)))
        if not locs:
            if "Error" in out or "Killed" in out or re.search(r"\*\*\* \[", out):
                stuck.append(out[-600:])
            break
        progress = False
        for f, ln in locs.items():
            n = admit(f"{DST}/{f}", ln)
            if n:
                broken.append(f"{os.path.basename(f)[:-2]}.{n}")
                progress = True
            else:
                stuck.append(f"{f}:{ln}")
        if not progress:
            break
    return broken, stuck


def property_failures(broken, files):
    """Property theorems that fail or depend on an admitted lemma."""
    bad = set(b.split(".")[-1] for b in broken)
    res = set(b.split(".")[-1] for b in broken if re.match(r"C\d\d+_", b.split(".")[-1]))
    for f in files:
        names = re.findall(r"^Theorem (C\d\d\w*)", open(f"{DST}/theories/Props/{f}").read(), re.M)
        if not os.path.exists(f"{DST}/theories/Props/{f}o"):
            res |= {n + "(not built)" for n in names}
            continue
        v = f"{DST}/q_{f}"
        with open(v, "w") as o:
            o.write(f"From Verif.Props Require Import {f[:-2]}.\n")
            for n in names:
                o.write(f'Goal True. idtac "@@{n}". Abort.\nPrint Assumptions {n}.\n')
        out = sh(f"cd {DST} && coqc -Q theories Verif q_{f}")
        for part in out.split("@@")[1:]:
            n = part.split()[0]
            if "Closed under" in part:
                continue
            for ax in re.findall(r"^([\w.]+)\s*:", part, re.M):
                if ax.split(".")[-1] in bad:
                    res.add(n)
        for g in (v, v + "o", v + "ok", v + "os", f"{DST}/q_{f[:-2]}.glob", f"{DST}/.q_{f[:-2]}.aux"):
            if os.path.exists(g):
                os.remove(g)
    return sorted(res)


def main():
    ns = {}
    exec(open(sys.argv[1]).read(), ns)
    only = sys.argv[2:]
    for (name, file, old, new, claim, expect) in ns["M"]:
        if only and name not in only:
            continue
        edit = f"{old.strip()}  ==>  {new.strip()}"
        if not only and os.path.exists(LOG) and any(json.loads(l)["edit"] == edit for l in open(LOG)):
            continue
        fresh()
        p = f"{DST}/theories/{file}"
        s = open(p).read()
        if s.count(old) != 1:
            print("SKIP", name, "matches:", s.count(old), flush=True)
            continue
        open(p, "w").write(s.replace(old, new))
        files = props_files(expect)
        broken, stuck = build(files)
        failed = property_failures(broken, files)
        missed = [e for e in expect if not any(f.startswith(e) for f in failed)]
        rec = {"definition": name, "file": file, "edit": edit, "breaks": claim,
               "expected": expect, "failed": failed, "examples_failed": sorted(set(b.split(".")[-1] for b in broken if "example" in b.lower())),
               "lemmas_failed": len(broken), "survived": missed, "tightened": []}
        if stuck:
            rec["note"] = "; ".join(stuck)[:600]
        print(json.dumps(rec), flush=True)
        with open(LOG, "a") as o:
            o.write(json.dumps(rec) + "\n")


main()
