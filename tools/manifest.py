import json
C={}
def c(pid,status,thms,note): C[pid]=dict(property=pid,status=status,theorems=thms,note=note)
exec(open('/verif/tools/claims.py').read())
json.dump({"claims":[C[k] for k in sorted(C)]},open('/verif/MANIFEST.json','w'),indent=1)
