#!/usr/bin/env python3
"""Mutation runner. usage: mutate.py spec.json
spec: list of {"file","def","old","new","edit","claim"}; for each, copy theories to a scratch
directory, apply the edit, rebuild with make -k, and append a line to seeded/LOG.jsonl."""
import json, sys, os, subprocess, re, shutil
ROOT="/verif/rocq"; SCR="/tmp/mut"
def names(path):
    out=[]
    for n,l in enumerate(open(path),1):
        m=re.match(r"\s*(?:Local |Global |#\[.*\] )*(Theorem|Lemma|Corollary|Example|Definition|Fixpoint|Fact|Proposition|Remark|Instance)\s+([\w']+)",l)
        if m: out.append((n,m.group(2)))
    return out
def enclosing(path,line):
    r=None
    for n,x in names(path):
        if n<=line: r=x
    return r
def dependents(f):
    """files that depend on theories/f, with f itself"""
    deps={}
    for x in os.listdir(f"{SCR}/theories"):
        if x.endswith(".v"):
            t=open(f"{SCR}/theories/{x}").read()
            deps[x[:-2]]=set(w for g in re.findall(r"From Verif Require (?:Import|Export) ([^.]*)\.",t) for w in g.split())
    r={f[:-2]}
    while True:
        n={x for x in deps if x not in r and deps[x]&r}
        if not n: return r
        r|=n
def run(m):
    shutil.rmtree(SCR,ignore_errors=True); shutil.copytree(ROOT,SCR)
    p=f"{SCR}/theories/{m['file']}"
    s=open(p).read()
    assert s.count(m["old"])==1,(m["def"],s.count(m["old"]))
    open(p,"w").write(s.replace(m["old"],m["new"]))
    subprocess.run("coq_makefile -f _CoqProject -o Makefile",shell=True,cwd=SCR,check=True,stdout=subprocess.DEVNULL)
    r=subprocess.run("make -k -j4 TIMECMD='timeout 240' 2>&1",shell=True,cwd=SCR,capture_output=True,text=True)
    failed=[]
    for f,l in re.findall(r'File "\./(theories/\w+\.v)", line (\d+)',r.stdout):
        if "Error" in r.stdout: failed.append(os.path.basename(f)[:-2]+"."+str(enclosing(f"{SCR}/{f}",int(l))))
    # property files that no longer build
    lost=[os.path.basename(x)[:-3] for x in re.findall(r"\*\*\* \[\S+: (theories/\w+\.vo)\]",r.stdout)]
    # a proof script that does not finish on the edited model counts as failed
    failed+=[x+" (does not finish)" for x in lost if not any(y.startswith(x+".") for y in failed)]
    # failures of files under edit elsewhere do not count
    dep=dependents(m["file"]); failed=[x for x in failed if re.split(r"[. ]",x)[0] in dep]
    return failed,lost,r.stdout
def main():
    spec=json.load(open(sys.argv[1]))
    log=open("/verif/seeded/LOG.jsonl","a")
    for m in spec:
        failed,lost,out=run(m)
        e={"definition":m["def"],"file":m["file"],"edit":m["edit"],"claim":m["claim"],"theorems_failed":failed,"theorems_tightened":m.get("tightened",[])}
        log.write(json.dumps(e)+"\n"); log.flush()
        print(("KILLED " if failed else "SURVIVED ")+m["def"]+" :: "+m["edit"],failed)
    log.close()
main()
