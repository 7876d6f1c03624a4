#!/usr/bin/env python3
"""Seeded-bug testing.  Usage: mutate.py SCRATCH_DIR MUTATIONS.py [ids...]

Copies rocq/ to SCRATCH_DIR, applies one edit to a model definition at a time and rebuilds.
Whenever a proof breaks it is replaced by Admitted *in the scratch copy* and the build goes on,
so that at the end `Print Assumptions` tells exactly which claim theorems depend on a broken
proof.  Nothing in /verif is modified except seeded/LOG.jsonl (with --log)."""
import sys, os, re, json, shutil, subprocess, importlib.util, time
args=[a for a in sys.argv[1:] if not a.startswith('--')]
LOG='--log' in sys.argv
scratch, mfile = args[0], args[1]
only=set(args[2:])
V='/verif'
BASE=os.environ.get('MUTBASE','/verif/rocq')   # a compiled copy of rocq/
spec=importlib.util.spec_from_file_location('m',mfile); m=importlib.util.module_from_spec(spec); spec.loader.exec_module(m)
def sh(cmd,cwd,timeout=None):
    return subprocess.run(cmd,shell=True,cwd=cwd,capture_output=True,text=True,timeout=timeout)
def order():
    files=[l.strip() for l in open(f'{scratch}/_CoqProject') if l.strip().endswith('.v')]
    return files
HEAD=re.compile(r'^\s*(?:#\[[^\]]*\]\s*)?(?:Local |Global )?(Lemma|Theorem|Example|Corollary|Fact|Remark|Instance|Definition|Fixpoint|Program)\s+([A-Za-z0-9_\']+)',re.M)
def deps():
    r=sh('coqdep -Q theories Verif theories/*.v',scratch)
    d={}
    for l in r.stdout.replace('\\\n',' ').splitlines():
        if ':' not in l: continue
        a,b=l.split(':',1)
        t=[x for x in a.split() if x.endswith('.vo')]
        if not t: continue
        d[t[0][:-1].replace('.vo','.v') if False else t[0][:-3]+'.v']=[x[:-3]+'.v' for x in b.split() if x.endswith('.vo') and x.startswith('theories/')]
    return d
def admit_at(path,line,charpos=None):
    """replace the proof containing given (1-based) line by Admitted. returns name or None"""
    s=open(path).read()
    if charpos is None:
        lines=s.split('\n'); charpos=sum(len(x)+1 for x in lines[:line-1])+len(lines[line-1])//2
    best=None
    for h in HEAD.finditer(s):
        if h.start()<=charpos: best=h
        else: break
    if best is None: return None
    kind,name=best.group(1),best.group(2)
    pm=re.compile(r'\bProof\b[^.]*\.').search(s,best.end())
    if kind in('Definition','Fixpoint','Program'):
        # only if it is a proof-mode definition whose Proof precedes the error
        if not pm or pm.start()>charpos: return None
    if not pm: return None
    em=re.compile(r'\b(Qed|Defined)\.').search(s,pm.end())
    if not em: return None
    nh=HEAD.search(s,best.end())
    if nh and nh.start()<pm.start(): return None
    s=s[:pm.start()]+'Admitted.'+s[em.end():]
    open(path,'w').write(s)
    return name
def compile_one(f,log,tmo=240):
    """compile, admitting broken proofs; returns (ok, [names])"""
    bad=[]
    while True:
        p=f'{scratch}/{f}'
        try:
            r=subprocess.run(f'ulimit -v 9000000; exec coqc -q -Q theories Verif -time {f} > {scratch}/time.out',shell=True,cwd=scratch,capture_output=True,text=True,timeout=tmo)
            rc=r.returncode; err=r.stderr; killed=False
        except subprocess.TimeoutExpired:
            sh('pkill -f "coqc -q -Q theories Verif -time '+f+'"',scratch); rc=1; err=''; killed=True
        if rc==0: return True,bad
        name=None
        mm=re.search(r'line (\d+), characters (\d+)-(\d+):\s*\nError',err)
        if mm and not killed:
            line=int(mm.group(1)); raw=open(p,'rb').read().split(b'\n')
            off=sum(len(x)+1 for x in raw[:line-1])+int(mm.group(2))
            name=admit_at(p,line,len(open(p,'rb').read()[:off].decode()))
        else:
            t=open(f'{scratch}/time.out').read(); cs=re.findall(r'Chars (\d+) - (\d+)',t)
            b=int(cs[-1][1])+2 if cs else 0
            name=admit_at(p,None,len(open(p,'rb').read()[:b].decode())+1)
        if name is None:
            return False,bad+['!! '+err.strip()[-400:]]
        bad.append(f[9:-2]+'.'+name)
        if len(bad)>60: return False,bad+['!! too many']
def claims():
    out=[]
    for f in sorted(os.listdir(f'{scratch}/theories')):
        if f.startswith('Prop') and f.endswith('.v'):
            for x in re.finditer(r'^Theorem (C\d+_\w+)',open(f'{BASE}/theories/{f}').read(),re.M): out.append((f[:-2],x.group(1)))
    return out
def main():
    for i,mu in enumerate(m.M):
        if only and mu['id'] not in only: continue
        t0=time.time()
        sh(f'rm -rf {scratch} && cp -a {BASE} {scratch}',V)
        f='theories/'+mu['file']
        s=open(f'{scratch}/{f}').read()
        if s.count(mu['old'])<1 or (s.count(mu['old'])>1 and not mu.get('first')):
            print(mu['id'],'EDIT DOES NOT APPLY',s.count(mu['old'])); continue
        open(f'{scratch}/{f}','w').write(s.replace(mu['old'],mu['new'],1))
        d=deps(); files=order()
        dirty=set(); broken=[]; ok=True; dead=set()
        # topological order
        done=[]; seen=set()
        def visit(x):
            if x in seen: return
            seen.add(x)
            for y in d.get(x,[]): visit(y)
            done.append(x)
        for x in files: visit(x)
        for x in done:
            if x==f or any(y in dirty for y in d.get(x,[])):
                dirty.add(x)
                if any(y in dead for y in d.get(x,[])): dead.add(x); continue
                o,b=compile_one(x,None)
                broken+=b
                if not o: dead.add(x)
        cl=[(a,c) for a,c in claims() if f'theories/{a}.v' in dirty]   # the others do not depend on the edit
        failed=[]; skipped=[]
        mods=sorted({a for a,_ in cl if f'theories/{a}.v' not in dead})
        failed+= [c for a,c in cl if f'theories/{a}.v' in dead]
        src='From Verif Require '+' '.join(mods)+'.\n'
        cc=[(a,c) for a,c in cl if a in mods]
        for a,c in cc: src+=f'Print Assumptions Verif.{a}.{c}.\n'
        open(f'{scratch}/MutCheck.v','w').write(src)
        r=sh('coqc -q -Q theories Verif MutCheck.v',scratch)
        parts=re.split(r'(?m)^(?=Closed under|Axioms:)',r.stdout)
        parts=[x for x in parts if x.strip()]
        if len(parts)!=len(cc): print('PARSE',len(parts),len(cc),r.stderr[-300:])
        for (a,c),x in zip(cc,parts):
            if x.startswith('Axioms'): failed.append(c)
        entry={'definition':mu['file'][:-2]+'.'+mu['def'],'edit':mu['edit'],'claim':mu['claim'],
               'theorems_failed':sorted(failed),'first_broken_proofs':broken[:4],'theorems_tightened':mu.get('tight',[])}
        if dead: entry['note']='files no longer compiling at all: '+', '.join(sorted(x[9:-2] for x in dead))
        if mu.get('note'): entry['note']=(entry.get('note','')+' '+mu['note']).strip()
        exp=mu['claim'].split()[0].rstrip(':,')
        flag='OK ' if any(c.startswith(exp+'_') for c in failed) else '*** NOT CAUGHT'
        print(mu['id'],flag,mu['def'],'|',mu['edit'],'|',len(failed),'failed:',', '.join(sorted(failed))[:300],'| broken:',broken[:3],f'{time.time()-t0:.0f}s',flush=True)
        if LOG: open(f'{V}/seeded/LOG.jsonl','a').write(json.dumps(entry)+'\n')
main()
