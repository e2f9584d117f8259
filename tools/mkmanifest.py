import json, re, os
root = os.path.join(os.path.dirname(os.path.abspath(__file__)), '..')
claims = []
def c(pid, status, theorems, note):
    claims.append(dict(property=pid, status=status, theorems=theorems.split(), note=note))
exec(open(os.path.join(root, 'tools', 'claims.py')).read())
src = ''
for f in open(os.path.join(root, 'rocq', '_CoqProject')):
    f = f.strip()
    if f.endswith('.v'):
        src += open(os.path.join(root, 'rocq', f)).read()
for x in claims:
    for t in x['theorems']:
        if not re.search(r'(Theorem|Lemma|Corollary)\s+' + re.escape(t) + r'\b', src):
            print('MISSING', x['property'], t)
json.dump(dict(claims=claims), open(os.path.join(root, 'MANIFEST.json'), 'w'), indent=1)
ids = [json.loads(l)['id'] for l in open(os.path.join(root, 'properties.jsonl'))]
done = {x['property'] for x in claims}
print('unclaimed:', [i for i in ids if i not in done])
