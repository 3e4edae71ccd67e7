import json,re
claims={}
for l in open('/verif/tools/claims.txt'):
    l=l.strip()
    if not l: continue
    a=[x.strip() for x in l.split('|',2)]
    claims[a[0]]=(a[1],a[2])
man={c['property']:c['theorems'] for c in json.load(open('/verif/MANIFEST.json'))['claims']}
props=[json.loads(l) for l in open('/verif/properties.jsonl')]
head=open('/verif/tools/design_head.md').read()
out=[head,'## Properties\n','Generated from `tools/claims.txt` and `MANIFEST.json` by `tools/design.py`. `proved`: the whole statement of\n`properties.jsonl`. `partial`: the `_refuted` theorems show where the statement is false of the code, the\n`_partial` theorems say for which inputs it is true.\n','| id | title | status | what is proved | theorems |','|---|---|---|---|---|']
for p in props:
    i=p['id']
    if i in claims: out.append(f"| {i} | {p['title']} | {claims[i][0]} | {claims[i][1].replace('|','&#124;')} | {', '.join('`'+t+'`' for t in man.get(i,[]))} |")
    else: out.append(f"| {i} | {p['title']} | open | not claimed yet | |")
open('/verif/DESIGN.md','w').write('\n'.join(out)+'\n')
