#!/usr/bin/env python3
"""Seed a bug into a scratch copy of the model and rebuild.
usage: mutate.py FILE.json  -- a list of {file, definition, old, new, edit, breaks}
Appends one line per attempt to seeded/LOG.jsonl (field theorems_failed = first failing statement of each file)."""
import json, os, re, shutil, subprocess, sys
SRC='/verif/rocq'; TMP='/tmp/mut'
def enclosing(path, line):
    name=None
    for i,l in enumerate(open(path),1):
        if i>line: break
        m=re.match(r'\s*(?:Local )?(?:Theorem|Lemma|Example|Corollary|Definition|Fixpoint|Fact|Remark|Proposition)\s+(\w+)',l)
        if m: name=m.group(1)
    return name
def run(m):
    shutil.rmtree(TMP,ignore_errors=True); subprocess.run(['cp','-a',SRC,TMP],check=True)
    f=f'{TMP}/theories/{m["file"]}'
    s=open(f).read()
    if s.count(m['old'])!=1: return {'error':f'pattern occurs {s.count(m["old"])} times'}
    open(f,'w').write(s.replace(m['old'],m['new']))
    try:
        p=subprocess.run(['make','-k','-j4'],cwd=TMP,capture_output=True,text=True,timeout=m.get('timeout',400))
        out=p.stdout+p.stderr; rc=p.returncode
    except subprocess.TimeoutExpired as e:
        subprocess.run(['pkill','-f','coqc.*'+TMP]); out=(e.stdout or b'').decode()+(e.stderr or b'').decode(); rc='timeout'
    failed=[]
    for mm in re.finditer(r'File "\./theories/(\w+\.v)", line (\d+)',out):
        if 'Warning' in out[mm.end():mm.end()+60]: continue
        failed.append(f'{mm.group(1)}:{enclosing(TMP+"/theories/"+mm.group(1),int(mm.group(2)))}')
    return {'rc':rc,'theorems_failed':sorted(set(failed))}
if __name__=='__main__':
    for m in json.load(open(sys.argv[1])):
        r=run(m)
        print(m['definition'],'|',m['edit'],'->',r)
        if 'error' in r: continue
        with open('/verif/seeded/LOG.jsonl','a') as fh:
            fh.write(json.dumps({'definition':m['definition'],'file':m['file'],'edit':m['edit'],'old':m['old'],'new':m['new'],'breaks':m['breaks'],
              'theorems_failed':r['theorems_failed'],'theorems_tightened':m.get('tightened',[])})+'\n')
