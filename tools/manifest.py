#!/usr/bin/env python3
"""Regenerate MANIFEST.json from the theorem names in rocq/theories/Properties*.v.
A property is `proved` when it has a theorem, unless every one of its theorems ends in _partial or
it is listed in STATUS below."""
import glob, json, os, re
root = os.path.join(os.path.dirname(os.path.abspath(__file__)), '..')
os.chdir(root)
notes = json.load(open('tools/notes.json'))
names = {}
cases = {}
for f in sorted(glob.glob('rocq/theories/Properties*.v')):
    for m in re.finditer(r'^(Theorem|Corollary|Lemma|Example|Fact) ((C\d\d)_\w+)', open(f).read(), re.M):
        k, n, c = m.group(1), m.group(2), m.group(3)
        d = cases if k in ('Example', 'Fact') or re.search(r'_(case|run)(_|$)|_case|_run', n) else names
        d.setdefault(c, []).append(n)
claims = []
for l in open('properties.jsonl'):
    c = json.loads(l)['id']
    ths = names.get(c, [])
    note = notes.get(c, {})
    st = note.get('status') or ('proved' if any(not t.endswith('_partial') for t in ths) else 'partial' if ths else 'partial')
    text = note.get('note', '')
    if cases.get(c):
        text = (text + ' ' if text else '') + 'Concrete cases meeting the hypotheses: ' + ', '.join(cases[c]) + '.'
    claims.append(dict(property=c, status=st, theorems=ths, note=text))
json.dump(dict(claims=claims), open('MANIFEST.json', 'w'), indent=1)
print({s: sum(1 for x in claims if x['status'] == s) for s in ('proved', 'partial', 'not_applicable')})
print([x['property'] for x in claims if not x['theorems']])
