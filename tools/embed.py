#!/usr/bin/env python3
"""Writes rocq/theories/SrcText.v, SrcTextB.v, SrcTextG.v and SrcTextC.v: the Go files the source-level theorems are about,
line by line.

usage: embed.py [REPO]        (default /repo)
       embed.py --check       compare the committed files with /repo
"""
import sys, os
here = os.path.dirname(os.path.abspath(__file__))
OUT = {
  'SrcText': [(f, f) for f in ['array', 'basic', 'bool', 'combinations', 'enum', 'jsval', 'maybe', 'number', 'object',
              'reference', 'string', 'structinfo']],
  'SrcTextB': [('interface', 'interface')] +
              [('b_' + f, 'builder/' + f) for f in ['array', 'bool', 'builder', 'enum', 'number', 'object', 'reference', 'string']],
  'SrcTextG': [('generator', 'generator')],
  'SrcTextC': [('cmd', 'cmd/jsval/jsval'), ('server', 'server/server')],
}
def path(m): return os.path.join(here, '..', 'rocq', 'theories', m + '.v')

def render(repo, files):
    o = ['(** Generated by tools/embed.py: the text of Go files of /repo, one string per line. *)',
         'From Coq Require Import String List.', 'Import ListNotations.', 'Open Scope string_scope.', '']
    for n, f in files:
        b = open(os.path.join(repo, f + '.go'), 'rb').read()
        assert all(c < 128 for c in b) and b'\r' not in b, f
        lines = b.decode().removesuffix('\n').split('\n')
        o.append('(** %s.go *)' % f)
        o.append('Definition text_%s : list string := [' % n)
        o.append(';\n'.join('"%s"' % l.replace('"', '""') for l in lines))
        o.append('].')
        o.append('')
    return '\n'.join(o)

if len(sys.argv) > 1 and sys.argv[1] == '--check':
    same = all(open(path(m)).read() == render('/repo', fs) for m, fs in OUT.items())
    print('same' if same else 'DIFFERENT')
    sys.exit(0 if same else 1)
for m, fs in OUT.items():
    t = render(sys.argv[1] if len(sys.argv) > 1 else '/repo', fs)
    if not os.path.exists(path(m)) or open(path(m)).read() != t: open(path(m), 'w').write(t)
