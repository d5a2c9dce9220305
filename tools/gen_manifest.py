import json,re,glob,sys,os
root=os.path.dirname(os.path.dirname(os.path.abspath(__file__)))
sys.path.insert(0,root+'/tools')
from manifest_data import NOTES
thms={}
for line in open(root+'/rocq/_CoqProject'):
    line=line.strip()
    if line.startswith('theories/Properties_'):
        f=line.split('/')[1]
        s=open(root+'/rocq/theories/'+f).read()
        for n in re.findall(r'^(?:Theorem|Corollary) (C\d\d_\w+)',s,re.M):
            thms.setdefault(n[:3],[]).append('Verif.%s.%s'%(f[:-2],n) if False else n)
props=[json.loads(l)['id'] for l in open(root+'/properties.jsonl')]
claims=[]
for p in props:
    if p in NOTES and thms.get(p):
        st,note=NOTES[p]
        claims.append({"property":p,"status":st,"theorems":thms[p],"note":note})
    elif thms.get(p): print('no note for',p,thms[p])
    elif p in NOTES: print('no theorem for',p)
    else: print('missing',p)
json.dump({"claims":claims},open(root+'/MANIFEST.json','w'),indent=1)
