#!/usr/bin/env python3
"""Mutation testing: usage mutate.py mutants.json.  Each mutant: file, def, old, new, claim.
Works in a scratch copy (/tmp/mut), rebuilds what depends on the edited file, and appends one line to
seeded/LOG.jsonl with the lemmas at which the build stops and the property theorems that no longer check."""
import json,sys,os,re,subprocess,shutil,glob
root=os.path.dirname(os.path.dirname(os.path.abspath(__file__)))
src=root+'/rocq'; work='/tmp/mut/rocq'
def decl_at(path,line):
    name='?'
    for i,l in enumerate(open(path),1):
        m=re.match(r'\s*(?:Theorem|Lemma|Corollary|Example|Definition|Fixpoint|Fact|Remark)\s+(\w+)',l)
        if m: name=m.group(1)
        if i>=line: break
    return name
def theorems(path):
    return re.findall(r'^(?:Theorem|Corollary)\s+(C\d+_\w+)',open(path).read(),re.M)
for mu in json.load(open(sys.argv[1])):
    shutil.rmtree(work,ignore_errors=True); subprocess.run(['cp','-a',src,work],check=True)
    f=work+'/theories/'+mu['file']; s=open(f).read()
    if s.count(mu['old'])<1: print('NOT FOUND',mu['file'],mu['old'][:60]); continue
    s=s.replace(mu['old'],mu['new'],1); open(f,'w').write(s)
    try:
        r=subprocess.run('timeout %d make -k -j4'%mu.get('timeout',400),shell=True,cwd=work,stdout=subprocess.PIPE,stderr=subprocess.STDOUT,text=True)
        out=r.stdout; rc=r.returncode
    except Exception as e: out=str(e); rc=-1
    stops=[]
    for m in re.finditer(r'File "\./theories/(\w+\.v)", line (\d+)',out):
        stops.append(m.group(1)+':'+decl_at(work+'/theories/'+m.group(1),int(m.group(2))))
    # property files not rebuilt
    failed=[]
    q=subprocess.run('make -n -k',shell=True,cwd=work,stdout=subprocess.PIPE,stderr=subprocess.STDOUT,text=True).stdout
    for p in sorted(glob.glob(work+'/theories/P_*.v')):
        b=os.path.basename(p)[:-2]
        if re.search(r'theories/%s\.v\b'%b,q): failed+=theorems(p)
    own=[t for t in failed if t.split('_')[0] in mu['claim'].split()[0].rstrip(':').split(',')]
    rec=dict(definition=mu['file'][:-2]+'.'+mu['def'],edit=mu.get('edit') or '%s  ->  %s'%(' '.join(mu['old'].split()),' '.join(mu['new'].split())),claim=mu['claim'],
        build_stops_at=sorted(set(stops)) or (['timeout'] if rc==124 else []),theorems_failed=own,other_theorems_not_rechecked=len(failed)-len(own),tightened=mu.get('tightened',[]))
    if mu.get('note'): rec['note']=mu['note']
    print(('KILLED ' if own else 'SURVIVED '),rec['definition'],mu['new'][:50].replace('\n',' '),rec['build_stops_at'],len(own),flush=True)
    if own or mu.get('log_survivor'): open(root+'/seeded/LOG.jsonl','a').write(json.dumps(rec)+'\n')
