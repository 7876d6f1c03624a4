#!/usr/bin/env python3
"""Systematic mutants of the model files.  usage: automut.py gen OUT | run LIST WORK BASE LOG [shard n]
Every mutant is one token edit inside a Definition/Fixpoint/Inductive of a model file; `run`
rebuilds a scratch copy of rocq/ and stops at the first failing file (killed) or finishes (SURVIVED)."""
import re, sys, os, json, subprocess, random, time
TH='/verif/rocq/theories'
MODELS="Arrays PL RC FRC PQ DynFlow Graph Dijkstra BellmanFord ActiveEdges FlowBuilder Predictors Predictors2 Neighbors Dataset Eval Eval2 Eval3 Import FileLock EvalLock PLCache Train EvalPlot EvalCom Vis".split()
if os.environ.get("AUTOMUT_FILES"): MODELS=os.environ["AUTOMUT_FILES"].split()
def defs(src):
    """(name, start, end) of every definition sentence, comments excluded."""
    clean=re.sub(r'\(\*.*?\*\)',lambda m:' '*len(m.group(0)),src,flags=re.S)
    out=[]
    for m in re.finditer(r'(?m)^(Definition|Fixpoint|Inductive|Record)\s+([A-Za-z_0-9\']+)',clean):
        e=re.compile(r'\.(\s|$)').search(clean,m.end())
        out.append((m.group(2),m.start(),e.end(),clean[m.start():e.end()]))
    return out
OPS=[(r'\bqltb\b','qleb'),(r'\bqleb\b','qltb'),(r'\bext_leb\b','ext_ltb'),(r'\bext_ltb\b','ext_leb'),
 (r'<\?','<=?'),(r'<=\?','<?'),(r'\bNat\.ltb\b','Nat.leb'),(r'\bNat\.leb\b','Nat.ltb'),
 (r'\bnegb\b','(fun b : bool => b)'),(r'&&','||'),(r'\|\|','&&'),
 (r' \+ ',' - '),(r' - ',' + '),(r' \* ',' + '),(r'\bqmin\b','qmax'),(r'\bqmax\b','qmin'),
 (r'\btrue\b','false'),(r'\bfalse\b','true'),(r'\beps\b','(eps + eps)'),
 (r'assert! .*? ;;','assert! true ;;'),(r'\bfst\b','snd'),(r'\bsnd\b','fst'),
 (r'\bif (?P<c>(?:(?!then\b|\bif\b).)+?) then','if negb (\\g<c>) then'),
 (r'(?<![A-Za-z0-9_%])0(?![A-Za-z0-9_])','1'),(r'(?<![A-Za-z0-9_%])1(?![A-Za-z0-9_])','2'),
 (r'\bseq 0\b','seq 1'),(r'\bfirstn\b','skipn'),(r'\bf_in\b','f_out'),(r'\bf_out\b','f_in'),(r'\bhd\b','last'),
 (r'\brev\b','id'),(r'\bfold_left\b','fold_right'),(r'\bw_cap\b','w_tau'),(r'\bw_tau\b','w_cap'),(r'\bs_cap\b','s_tau'),(r'\bs_tau\b','s_cap'),
 (r'\brc_lo\b','rc_hi'),(r'\brc_hi\b','rc_lo'),(r'\bpl_lo\b','pl_hi'),(r'\bincoming\b','outgoing'),(r'\boutgoing\b','incoming'),
 (r'\be_from\b','e_to'),(r'\be_to\b','e_from'),(r'\bErr [A-Za-z]+','Err NotModelled'),(r'\bS ([a-z]+)\b','\\1'),(r' ++ ',' ++ '),(r'/ ','* ')]
def gen():
    res=[]
    for f in MODELS:
        src=open(f'{TH}/{f}.v').read()
        for name,a,b,clean in defs(src):
            for pat,rep in OPS:
                for m in re.finditer(pat,clean,flags=re.S):
                    new=m.expand(rep)
                    if new==m.group(0): continue
                    pre=clean[:m.start()]
                    if ':=' not in pre and not clean.startswith('Inductive'): continue
                    res.append(dict(file=f,defn=name,pos=a+m.start(),old=m.group(0),new=new,ctx=src[max(a,a+m.start()-30):a+m.end()+30].replace('\n',' ')))
    return res
def restore(base,work):
    import shutil
    for d in ('','theories'):
        bs=set(os.listdir(os.path.join(base,d)))
        for x in os.listdir(os.path.join(work,d)):
            q=os.path.join(work,d,x)
            if x not in bs and os.path.isfile(q): os.remove(q)
        for x in bs:
            p,q=os.path.join(base,d,x),os.path.join(work,d,x)
            if os.path.isfile(p) and (not os.path.exists(q) or os.stat(p).st_mtime_ns!=os.stat(q).st_mtime_ns): shutil.copy2(p,q)
def main():
    if sys.argv[1]=='gen':
        ms=gen(); random.seed(1)
        by={}
        for m in ms: by.setdefault((m['file'],m['defn']),[]).append(m)
        for k in by: random.shuffle(by[k])
        # round robin over definitions so that every definition is hit early
        out=[]; r=0
        while any(len(v)>r for v in by.values()):
            lay=[v[r] for v in by.values() if len(v)>r]; random.shuffle(lay); out+=lay; r+=1
        json.dump(out,open(sys.argv[2],'w')); print(len(out),'mutants',len(by),'definitions')
    else:
        lst,work,base,log=sys.argv[2:6]; sh,n=(int(sys.argv[6]),int(sys.argv[7])) if len(sys.argv)>6 else (0,1)
        ms=json.load(open(lst)); done=set()
        if os.path.exists(log): done={json.loads(l)['i'] for l in open(log)}
        for i,m in enumerate(ms):
            if i%n!=sh or i in done: continue
            restore(base,work)
            p=f"{work}/theories/{m['file']}.v"; s=open(p).read()
            assert s[m['pos']:m['pos']+len(m['old'])]==m['old'],(i,m)
            open(p,'w').write(s[:m['pos']]+m['new']+s[m['pos']+len(m['old']):])
            t=time.time()
            r=subprocess.run(['timeout','120','coqc','-Q','theories','Verif',f"theories/{m['file']}.v"],cwd=work,capture_output=True,text=True)
            if r.returncode!=0: st='invalid'; where=''
            else:
                try:
                    r=subprocess.run('timeout 1500 make -j2 2>&1',shell=True,cwd=work,capture_output=True,text=True)
                    bad=re.findall(r'File "\./theories/(\w+)\.v", line (\d+)[^\n]*\nError',r.stdout)
                    st='killed' if r.returncode!=0 else 'SURVIVED'; where=bad[0] if bad else r.stdout[-200:] if r.returncode else ''
                except Exception as ex: st='error'; where=str(ex)
            open(log,'a').write(json.dumps(dict(i=i,status=st,where=where,t=round(time.time()-t),**m))+'\n')
main()
