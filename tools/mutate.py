#!/usr/bin/env python3
"""Seeded-bug testing.  usage: mutate.py mutants.json
Each mutant: {"file","definition","old","new","edit","claim"[,"targets"]}; with "targets" only
those T_ modules are rebuilt.  The model is edited in a scratch
copy and rebuilt.  Every proof that breaks is replaced by Admitted in the scratch copy so that
the build continues; the property theorems whose Print Assumptions then lists an admitted lemma
(or whose own proof broke) are the ones that failed.  One JSON line per mutant goes to
seeded/LOG.jsonl."""
import json, os, re, shutil, subprocess, sys
root = os.path.dirname(os.path.dirname(os.path.abspath(__file__)))
scratch = os.environ.get("MUT_SCRATCH", "/tmp/mut")
ROUNDS = 40

def sh(cmd, timeout=1500):
    try:
        r = subprocess.run(cmd, shell=True, cwd=scratch, stdout=subprocess.PIPE, stderr=subprocess.STDOUT, text=True, timeout=timeout)
        return r.returncode, r.stdout
    except subprocess.TimeoutExpired as e:
        return 99, (e.stdout or b"").decode() if isinstance(e.stdout, bytes) else (e.stdout or "")

base = os.environ.get("MUT_BASE", "/tmp/mutbase")

def prepare():
    head = subprocess.check_output(["git", "-C", root, "rev-parse", "HEAD"], text=True).strip()
    mark = base + "/HEAD"
    if os.path.exists(mark) and open(mark).read() == head:
        return
    subprocess.run(f"mkdir -p {base} && rm -rf {base}/new && mkdir {base}/new && git -C {root} archive HEAD rocq | tar -x -C {base}/new", shell=True, check=True)
    subprocess.run(f"""cd {base} && mkdir -p rocq/theories
        for f in rocq/theories/*.v; do [ -e new/$f ] || rm -f $f; done
        for f in new/rocq/_CoqProject new/rocq/theories/*.v; do cmp -s $f ${{f#new/}} || cp $f ${{f#new/}}; done
        cd rocq && coq_makefile -f _CoqProject -o Makefile && make -j4 > build.log 2>&1""", shell=True, check=True, executable="/bin/bash")
    open(mark, "w").write(head)

def sync():
    subprocess.run(f"rm -rf {scratch} && cp -a {base}/rocq {scratch}", shell=True, check=True)

def admit(path, line):
    src = open(path).read().split("\n")
    i = line - 1
    while i >= 0 and not re.match(r"\s*(Lemma|Theorem|Example|Corollary|Fact)\b", src[i]):
        i -= 1
    if i < 0:
        return None
    name = re.match(r"\s*\w+\s+([\w']+)", src[i]).group(1)
    j = i
    while j < len(src) and not re.search(r"\bProof\.", src[j]):
        j += 1
    if j < len(src) and "Proof. Admitted." in src[j]:
        return None
    k = j
    while k < len(src) and not re.search(r"\b(Qed|Defined)\.", src[k]):
        k += 1
    if j >= len(src) or k >= len(src) or k < line - 1:
        return None
    pre = src[j][: src[j].index("Proof.")]
    post = re.sub(r"^.*?\b(Qed|Defined)\.", "", src[k])
    src[j:k + 1] = [pre + "Proof. Admitted." + post] + [""] * (k - j)
    open(path, "w").write("\n".join(src))
    return name

def assumptions():
    bad = []
    for f in sorted(os.listdir(scratch + "/theories")):
        if not (f.startswith("T_") and f.endswith(".v")):
            continue
        vo = "/theories/" + f + "o"
        if os.path.exists(base + "/rocq" + vo) and os.path.getmtime(scratch + vo) == os.path.getmtime(base + "/rocq" + vo):
            continue  # not rebuilt: nothing it depends on changed
        txt = open(f"{scratch}/theories/{f}").read()
        names = re.findall(r"^Print Assumptions ([\w']+)\.", txt, re.M)
        mod = f[:-2]
        rc, out = sh("printf '%s' \"" + f"From Verif Require Import {mod}.\n" +
                     "".join(f"Print Assumptions {n}.\n" for n in names) + f"\" > {scratch}/Chk.v; coqc -Q theories Verif Chk.v")
        chunks = re.split(r"(?=Closed under the global context|Axioms:)", out)
        chunks = [c for c in chunks if c.startswith("Closed") or c.startswith("Axioms")]
        for n, c in zip(names, chunks):
            if c.startswith("Axioms"):
                bad.append(n)
    return bad

def run(m):
    sync()
    p = f"{scratch}/theories/{m['file']}"
    s = open(p).read()
    if s.count(m["old"]) < 1:
        print("NO MATCH", m); return
    s = s.replace(m["old"], m["new"], 1)
    open(p, "w").write(s)
    broke, note = [], ""
    for _ in range(ROUNDS):
        rc, out = sh(f"make -k -j{os.environ.get('MUT_JOBS', '4')} " + " ".join(f"theories/{t}.vo" for t in m.get("targets", [])) + " 2>&1")
        errs = re.findall(r'File "\./?(theories/[\w]+\.v)", line (\d+), characters [\d-]+:\nError', out)
        if rc == 99:
            note = "build timed out"; break
        if rc == 0:
            break
        if "No rule to make target" in out:
            print("NOT RUN, wrong target", m); return  # nothing was tested: not an attempt
        if not errs:
            note = "build failed: " + out[-300:]; break
        done = False
        for f, l in dict.fromkeys(errs):
            n = admit(f"{scratch}/{f}", int(l))
            if n:
                broke.append(n); done = True
            else:
                note += f" error outside a proof: {f}:{l}"
        if not done:
            break
    else:
        note += " more rounds needed"
    failed = assumptions() if rc == 0 else []
    rec = {"definition": m["definition"], "file": m["file"], "edit": m["edit"], "claim": m["claim"],
           "lemmas_broken": broke, "theorems_failed": failed, "theorems_tightened": m.get("tightened", [])}
    if "targets" in m: rec["rebuilt"] = m["targets"]
    if note: rec["note"] = note.strip()
    open(root + "/seeded/LOG.jsonl", "a").write(json.dumps(rec) + "\n")
    print(json.dumps(rec), flush=True)

prepare()
for m in json.load(open(sys.argv[1])):
    run(m)
