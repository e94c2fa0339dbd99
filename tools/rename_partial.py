#!/usr/bin/env python3
"""Keep theorem names in line with tools/notes.json: positive theorems of a property with
status partial end in _partial, those of a proved property do not."""
import json, re, glob
notes = json.load(open('/verif/tools/notes.json'))
files = glob.glob('/verif/rocq/theories/*.v')
names = set()
for f in glob.glob('/verif/rocq/theories/Prop*.v'):
    names |= set(re.findall(r'^\s*Theorem (C\d\d_\w+)', open(f).read(), re.M))
ren = {}
for n in names:
    st = notes.get(n[:3], ['partial'])[0]
    if n.endswith('_refuted'): continue
    if st == 'partial' and not n.endswith('_partial'): ren[n] = n + '_partial'
    if st == 'proved' and n.endswith('_partial'): ren[n] = n[:-8]
for f in files:
    s = t = open(f).read()
    for a, b in ren.items(): t = re.sub(r'\b%s\b' % a, b, t)
    if s != t: open(f, 'w').write(t)
print(len(ren), 'renamed')
