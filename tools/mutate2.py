#!/usr/bin/env python3
"""Run seeded bugs against the proofs in a scratch copy, stopping at the first
proofs that break.

usage: mutate2.py batch.json log.jsonl     (SRC: built tree, SCR: scratch copy)
batch.json: list of {"def", "file", "old", "new", "claim"}.
The theorems hit are those whose proofs use, directly or not, a lemma that
broke; who uses what is read from the .glob files of the built tree.
"""
import json, os, re, subprocess, sys, glob, collections

SRC = os.environ.get("SRC", "/verif/rocq")
SCR = os.environ.get("SCR", "/tmp/mut/rocq2")
LIMIT = os.environ.get("LIMIT", "400")

def sh(cmd, **kw):
    return subprocess.run(cmd, shell=True, capture_output=True, text=True, **kw)

HEAD = re.compile(r"^\s*(?:Local\s+|Global\s+|#\[[^\]]*\]\s*)?(Lemma|Theorem|Example|Corollary|Fact|Instance|Definition|Fixpoint|Goal|Program Fixpoint|Let|Remark)\s+([\w']+)", re.M)

def graph():
    """name (file.item) -> items that use it"""
    users = collections.defaultdict(set)
    for f in glob.glob(f"{SRC}/theories/*.glob"):
        mod = os.path.basename(f)[:-5]
        items, refs = [], []
        for l in open(f, errors="replace"):
            m = re.match(r"(prf|def|thm|inst|defax|prfax) (\d+):\d+ \S+ (\S+)$", l)
            if m:
                items.append((int(m.group(2)), m.group(3)))
            m = re.match(r"R(\d+):\d+ Verif\.(\w+) \S+ (\S+) \w+$", l)
            if m:
                refs.append((int(m.group(1)), m.group(2) + "." + m.group(3)))
        items.sort(); refs.sort()
        j = -1
        for pos, tgt in refs:
            while j + 1 < len(items) and items[j + 1][0] <= pos:
                j += 1
            if j >= 0:
                users[tgt].add(mod + "." + items[j][1])
    return users

def closure(users, seeds):
    seen, todo = set(seeds), list(seeds)
    while todo:
        for y in users.get(todo.pop(), ()):
            if y not in seen:
                seen.add(y); todo.append(y)
    return seen

def enclosing(path, line):
    src = open(path).read().split("\n")
    name = None
    for m in HEAD.finditer("\n".join(src[:line])):
        name = m.group(2)
    return name

def run(mu, users):
    sh(f"rm -rf {SCR}; cp -a {SRC} {SCR}")
    f = f"{SCR}/theories/{mu['file']}.v"
    s = open(f).read()
    n = s.count(mu["old"])
    if n != 1:
        return dict(error=f"old text occurs {n} times")
    open(f, "w").write(s.replace(mu["old"], mu["new"]))
    sh(f"cd {SCR} && coq_makefile -f _CoqProject -o Makefile")
    r = sh(f"cd {SCR} && nice make -j{os.environ.get('J','2')} COQEXTRAFLAGS='-set \"Default Timeout={LIMIT}\"' 2>&1")
    if r.returncode == 0:
        return dict(failed=[], hit=[])
    errs, cur = [], None
    ls = r.stdout.split("\n")
    for i, l in enumerate(ls):
        m = re.match(r'File "\./(theories/[\w]+\.v)", line (\d+)', l)
        if m:
            cur = (m.group(1), int(m.group(2)))
        elif l.startswith("Error") and cur:
            errs.append((cur, " ".join(ls[i:i + 3])[:200])); cur = None
    if not errs:
        return dict(error="build failed without location: " + r.stdout[-400:])
    failed, seeds, msgs = [], [], []
    for (p, ln), msg in errs:
        mod = os.path.basename(p)[:-2]
        nm = enclosing(f"{SCR}/{p}", ln)
        failed.append((mod, nm)); seeds.append(f"{mod}.{nm}"); msgs.append(msg)
    hit = sorted(x.split(".")[1] for x in closure(users, seeds) if re.match(r"T_\w+\.C\d\d", x))
    return dict(failed=failed, hit=hit, messages=msgs)

if __name__ == "__main__":
    users = graph()
    for mu in json.load(open(sys.argv[1])):
        r = run(mu, users)
        r.update(mu)
        with open(sys.argv[2], "a") as fo:
            fo.write(json.dumps(r) + "\n")
        print(mu["def"], mu["new"][:40], "->", r.get("error") or f"{r['failed']}, {len(r['hit'])} theorems", flush=True)
