#!/usr/bin/env python3
"""Generate rocq/theories/Props*.v from the marked lemmas of rocq/theories/*Thms.v.

A lemma preceded by a comment  (*@ Theorem NAME : text *)  or  (*@ Example NAME : text *)
is restated in PropsX.v (X from XThms.v) under NAME, proved by `exact`, followed by Print Assumptions.
"""
import re, glob, os
D = os.path.join(os.path.dirname(os.path.abspath(__file__)), '..', 'rocq', 'theories')
def binders(b):
    names = []
    for m in re.finditer(r'\{[^{}]*\}|\(([^():]*):[^()]*(?:\([^()]*\)[^()]*)*\)|([^\s(){}]+)', b):
        if m.group(0).startswith('{'): continue
        names += (m.group(1) or m.group(2)).split()
    return names
for f in sorted(glob.glob(D + '/*Thms.v')):
    s = open(f).read()
    mod = os.path.basename(f)[:-2]
    out = ['(** * Props%s: the property theorems of this part, restated; proofs are in %s.' % (mod[:-4], mod),
           '    Generated by tools/gen_props.py: this file contains only statements, [exact] and Print Assumptions. *)']
    req = [r for r in re.findall(r'(?ms)^From .*?Require.*?\.$', s) if not r.startswith('From Coquelicot')]
    out += req + ['From Verif Require Import %s.' % mod]
    out += re.findall(r'(?m)^(?:Local )?Open Scope .*\.$', s) + ['']
    for m in re.finditer(r'(?ms)\(\*@ (Theorem|Example) (\w+)\s*:?\s*(.*?)\*\)\s*Lemma (\w+)(.*?)\nProof', s):
        kind, name, text, lem, rest = m.groups()
        # split binders from statement at first ':' at depth 0
        depth = 0
        for i, c in enumerate(rest):
            if c in '({[': depth += 1
            elif c in ')}]': depth -= 1
            elif c == ':' and depth == 0: break
        bs, st = rest[:i], rest[i+1:].strip()
        if text.strip(): out.append('(** %s *)' % text.strip())
        out.append('%s %s%s :\n  %s' % (kind, name, (' ' + bs.strip()) if bs.strip() else '', st))
        names = binders(bs)
        out.append('Proof. exact (%s). Qed.' % ' '.join([lem] + names))
        if kind == 'Theorem': out.append('Print Assumptions %s.' % name)
        out.append('')
    open(D + '/Props%s.v' % mod[:-4], 'w').write('\n'.join(out))
