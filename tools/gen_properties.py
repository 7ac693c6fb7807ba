#!/usr/bin/env python3
"""Regenerates theories/Properties*.v from tools/claims.py: each theorem's full
statement as Coq prints it, closed by `exact`, with Print Assumptions beneath.
Also writes MANIFEST.json."""
import json, re, subprocess, os, sys
ROOT = os.path.dirname(os.path.dirname(os.path.abspath(__file__)))
os.chdir(ROOT + '/rocq')
sys.path.insert(0, ROOT + '/tools')
from claims import CLAIMS, GROUPS
props = {}
for l in open(ROOT + '/properties.jsonl'):
    p = json.loads(l); props[p['id']] = p
mods = [l.strip()[9:-2] for l in open('_CoqProject') if l.startswith('theories/')]
mods = [m for m in mods if not m.startswith('Properties')]
src = {}
SOURCE = 'PropertiesSource'   # the only group that imports the interpreter of the source
def is_src(m): return m.startswith('Src')
srcs = {}
for m in mods:
    t = open('theories/%s.v' % m).read()
    for k in re.finditer(r'^\s*(Theorem|Lemma|Corollary|Example|Definition)\s+(\w+)', t, re.M):
        (srcs if is_src(m) else src).setdefault(k.group(2), (m, k.group(1)))
def origin(c, t): return srcs.get(t) if c['property'] in GROUPS[SOURCE][1] and t in srcs else src.get(t)
def pre(mods): return ("From Coq Require Import List String ZArith Bool SpecFloat QArith.\n"
       "From Verif Require Import %s.\nImport ListNotations.\n" % '\n  '.join(
           ' '.join(mods[i:i+8]) for i in range(0, len(mods), 8)))
PRES = {True: pre(mods), False: pre([m for m in mods if not is_src(m)])}
SCOPE = "Open Scope nat_scope.\nOpen Scope string_scope.\nOpen Scope list_scope.\n"
names = {True: [], False: []}
for c in CLAIMS:
    for t in c['theorems']:
        if not origin(c, t): sys.exit('unknown theorem %s in %s' % (t, c['property']))
        ns = names[c['property'] in GROUPS[SOURCE][1]]
        if t not in ns: ns.append(t)
fulls = {}
def check(b):
    q = PRES[b] + SCOPE + "Set Printing Width 100.\nSet Printing Depth 2000.\n"
    for n in names[b]: q += 'Check @%s.\n' % n
    return q
os.makedirs('/tmp/gp', exist_ok=True)
def coq(q):
    open('/tmp/gp/q.v', 'w').write(q)
    r = subprocess.run(['coqc', '-Q', 'theories', 'Verif', '/tmp/gp/q.v'], capture_output=True, text=True)
    if r.returncode: sys.exit(r.stderr)
    return r.stdout
def split(out, names, chk=True):
    res = {}; i = 0; cur = None
    for l in out.split('\n'):
        if i < len(names) and l.startswith('@'): l = l[1:]
        if i < len(names) and l.split(' ')[0] == names[i] and (l == names[i] or l.startswith(names[i] + ' ')):
            cur = names[i]; i += 1; res[cur] = ''; l = l[len(cur):].strip()
            if l.startswith(':'): l = l[1:].strip()
            if not l: continue
        elif chk and re.match(r'^     : ', l): l = '       ' + l[7:]
        if cur is not None: res[cur] += l + '\n'
    assert i == len(names), names[i]
    return res
sts = {b: split(coq(check(b)), names[b]) for b in names}
st = sts[False]
refs = sorted({m for s in st.values() for m in re.findall(r'^\s*~\s*(\w+_full\w*)\s*$', s, re.M)})
if refs:
    out = coq(PRES[False] + SCOPE + "Set Printing Width 100.\nSet Printing Depth 2000.\n" +
              ''.join('Print %s.\n' % r for r in refs))
    bod = split(out, refs, False)
    for r in refs:
        b = bod[r].strip()
        b = re.sub(r'^=\s*', '', b)
        b = re.sub(r'\n\s*: Prop\s*$', '', b)
        b = re.split(r'\n\nArguments|\nArguments', b)[0].rstrip()
        b = re.sub(r'\n\s*: [^\n]*Prop\s*$', '', b)
        fulls[r] = b
def stmt(n, b):
    s = sts[b][n].rstrip()
    m = re.match(r'^\s*~\s*(\w+_full\w*)\s*$', s)
    if m and m.group(1) in fulls and not fulls[m.group(1)].startswith('fun'):
        return '  ~ (' + fulls[m.group(1)].replace('\n', '\n   ') + ')'
    return re.sub(r'^     ', '', s, flags=re.M)
MF = []
os.system('rm -f theories/Properties*.v')
for g, (title, ids) in GROUPS.items():
    o = "(** %s\n\n    Only statements: each theorem is proved in the file named above it. *)\n\n" % title
    o += PRES[g == SOURCE] + SCOPE + '\n'
    for c in CLAIMS:
        if c['property'] not in ids: continue
        p = props[c['property']]
        o += "(** ** %s. %s\n\n    %s" % (p['id'], p['title'], p['statement'].replace('"', "''").replace('*)', '* )').replace('(*', '( *'))
        o += "\n    Status: %s. %s *)\n\n" % (c['status'], c['note'].replace('"', "''"))
        thms = []
        org = {t: origin(c, t) for t in c['theorems']}
        for t in c['theorems']:
            nm = c['property'] + '_' + t
            if c['status'] == 'partial' and 'refuted' not in t and t in c['partial'] and org[t][1] != 'Example': nm += '_partial'
            kw = 'Example' if org[t][1] == 'Example' else 'Theorem'
            o += "(* %s.v *)\n%s %s :\n%s.\nProof. exact (@%s.%s). Qed.\n" % (org[t][0], kw, nm, stmt(t, g == SOURCE), org[t][0], t)
            if kw == 'Theorem':
                o += "Print Assumptions %s.\n" % nm; thms.append(nm)
            o += '\n'
        ex = [c['property'] + '_' + t for t in c['theorems'] if org[t][1] == 'Example']
        note = c['note']
        if ex: note = (note + ' Concrete cases: ' + ', '.join(ex) + '.').strip()
        MF.append(dict(property=c['property'], status=c['status'], theorems=thms, note=note))
    open('theories/%s.v' % g, 'w').write(o)
MF.sort(key=lambda c: c['property'])
json.dump({'claims': MF}, open(ROOT + '/MANIFEST.json', 'w'), indent=1)
miss = [p for p in props if p not in {c['property'] for c in MF}]
print('written', sum(map(len, names.values())), 'theorems; properties without claims:', miss)
