#!/usr/bin/env python3
"""Append the results of a mutation batch (FILE.out.jsonl of mutate.py) to seeded/LOG.jsonl.

usage: mutlog.py FILE.out.jsonl [TIGHTENED.json]

TIGHTENED.json maps a mutant id to {"tightened": [theorem names], "note": text}.
"""
import sys, json, os
batch = os.path.basename(sys.argv[1]).split('.')[0]
t = json.load(open(sys.argv[2])) if len(sys.argv) > 2 else {}
log = os.path.join(os.path.dirname(os.path.abspath(__file__)), '..', 'seeded', 'LOG.jsonl')
seen = {(d.get('batch'), d.get('id')) for d in map(json.loads, open(log))}
with open(log, 'a') as o:
    for l in open(sys.argv[1]):
        d = json.loads(l)
        if 'failed' not in d or (batch, d['id']) in seen: continue
        e = t.get(d['id'], {})
        r = {'batch': batch, 'id': d['id'], 'definition': d['file'].replace('theories/', '') + ':' + d['definition'],
             'edit': {'what': d['edit'], 'old': d['old'], 'new': d['new']}, 'claim_broken': d['breaks'],
             'failed_lemmas': d['failed_lemmas'], 'theorems_failed': d['failed'],
             'theorems_tightened': e.get('tightened', [])}
        if d.get('quick'): r['build'] = 'stopped at the first lemmas in error; theorems found by reference to them'
        if e.get('note'): r['note'] = e['note']
        o.write(json.dumps(r) + '\n')
