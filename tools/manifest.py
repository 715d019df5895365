import json
M=[]
def c(p,st,th,note):
    # a later line replaces an earlier one
    M[:]=[m for m in M if m['property']!=p]
    M.append(dict(property=p,status=st,theorems=th.split(),note=note))
exec(open('/verif/tools/claims.py').read())
ids=[json.loads(l)['id'] for l in open('/verif/properties.jsonl')]
have={m['property'] for m in M}
for i in have: assert i in ids,i
print("missing:",[i for i in ids if i not in have])
M.sort(key=lambda m:m['property'])
json.dump({"claims":M},open('/verif/MANIFEST.json','w'),indent=1)
