#!/usr/bin/env python3
"""Run one seeded bug against the proofs in a scratch copy.

usage: mutate.py batch.json [log.jsonl]
batch.json: list of {"def", "file", "old", "new", "claim"}.
Every proof that breaks is replaced by Admitted in the scratch copy and the
build is resumed, so that Print Assumptions tells which theorems are affected.
"""
import json, os, re, subprocess, sys, shutil

SRC = os.environ.get("SRC", "/verif/rocq")
SCR = os.environ.get("SCR", "/tmp/mut/rocq")
LIMIT = os.environ.get("LIMIT", "150")

def sh(cmd, **kw):
    return subprocess.run(cmd, shell=True, capture_output=True, text=True, **kw)

HEAD = re.compile(r"^\s*(?:Local\s+|Global\s+|#\[[^\]]*\]\s*)?(Lemma|Theorem|Example|Corollary|Fact|Instance|Definition|Fixpoint|Goal|Program Fixpoint)\s+([\w']+)", re.M)

def admit(path, line):
    src = open(path).read()
    lines = src.split("\n")
    pos = sum(len(l) + 1 for l in lines[:line - 1]) + len(lines[line - 1])
    name = None
    for m in HEAD.finditer(src):
        if m.start() > pos:
            break
        name, start = m.group(2), m.end()
    if name is None:
        return None
    pr = re.compile(r"\bProof\b[^.]*\.").search(src, start)
    end = re.compile(r"\b(Qed|Defined)\.").search(src, start)
    nxt = HEAD.search(src, start)
    if not pr or not end or (nxt and nxt.start() < pr.start()):
        return "definition " + name
    src = src[:pr.end()] + " Admitted." + src[end.end():]
    open(path, "w").write(src)
    return name

def run(mu):
    if not os.path.isdir(SCR):
        os.makedirs(os.path.dirname(SCR), exist_ok=True)
        sh(f"cp -a {SRC} {SCR}")
    sh(f"rm -rf {SCR}; cp -a {SRC} {SCR}")
    f = f"{SCR}/theories/{mu['file']}.v"
    s = open(f).read()
    n = s.count(mu["old"])
    if n != 1:
        return dict(error=f"old text occurs {n} times")
    open(f, "w").write(s.replace(mu["old"], mu["new"]))
    sh(f"cd {SCR} && coq_makefile -f _CoqProject -o Makefile")
    failed = []
    for it in range(400):
        r = sh(f"cd {SCR} && nice make -k -j{os.environ.get('J','2')} COQEXTRAFLAGS='-set \"Default Timeout={LIMIT}\"' 2>&1")
        out = r.stdout
        errs = []
        cur = None
        for l in out.split("\n"):
            m = re.match(r'File "\./(theories/[\w]+\.v)", line (\d+)', l)
            if m:
                cur = (m.group(1), int(m.group(2)))
            elif l.startswith("Error") and cur:
                errs.append(cur); cur = None
        if r.returncode == 0:
            break
        if not errs:
            return dict(error="build failed without location: " + out[-400:], failed=failed)
        for p, ln in sorted(set(errs)):
            nm = admit(f"{SCR}/{p}", ln)
            if nm is None or nm.startswith("definition "):
                return dict(error=f"{p}:{ln} {nm}", failed=failed)
            failed.append((os.path.basename(p)[:-2], nm))
    # affected theorems
    hit = []
    for t in sorted(os.listdir(f"{SCR}/theories")):
        if not re.match(r"T_\w+\.v$", t):
            continue
        src = open(f"{SCR}/theories/{t}").read()
        names = re.findall(r"Print Assumptions\s+([\w']+)\.", src)
        o = sh(f"cd {SCR} && coqc -Q theories Verif theories/{t}").stdout
        parts = re.split(r"(?m)^(?=Closed under the global context|Axioms:)", o)
        parts = [p for p in parts if p.startswith(("Closed", "Axioms"))]
        bad = set(n for _, n in failed)
        if len(parts) != len(names):
            hit.append(f"{t}: {len(parts)}/{len(names)} outputs")
        for nme, p in zip(names, parts):
            ax = re.findall(r"(?m)^([\w'.]+)\s*(?::|$)", p)
            if any(a.split(".")[-1] in bad for a in ax):
                hit.append(nme)
    hit += [n for fl, n in failed if fl.startswith("T_") and n not in hit]
    return dict(failed=failed, hit=hit)

batch = json.load(open(sys.argv[1]))
log = sys.argv[2] if len(sys.argv) > 2 else "/tmp/mut/out.jsonl"
os.makedirs("/tmp/mut", exist_ok=True)
for mu in batch:
    r = run(mu)
    r.update(mu)
    with open(log, "a") as fo:
        fo.write(json.dumps(r) + "\n")
    print(mu["def"], mu["new"][:40], "->", r.get("error") or f"{len(r['failed'])} proofs, {len(r['hit'])} theorems", flush=True)
