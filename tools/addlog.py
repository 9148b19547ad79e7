"""Append mutation results to seeded/LOG.jsonl.

usage: addlog.py results.jsonl [tightened.json]
tightened.json maps "file|new" of an edit that no theorem caught at first to
[theorems that were tightened or added].
Prints the edits that no theorem catches.
"""
import json, sys
res = [json.loads(l) for l in open(sys.argv[1])]
tight = json.load(open(sys.argv[2])) if len(sys.argv) > 2 else {}
with open('/verif/seeded/LOG.jsonl', 'a') as f:
    for d in res:
        key = d['file'] + '|' + d['new']
        thms = [x for x in d['failed'] if not x.startswith('example ')]
        ex = [x[8:] for x in d['failed'] if x.startswith('example ')]
        t = tight.get(key, [])
        if not thms and not t:
            print('UNCAUGHT', key, '| examples:', ex, '| inner:', d['inner'])
            continue
        f.write(json.dumps({
            'definition': d['file'].replace('.v', '') + '.' + d['def'],
            'edit': d['old'] + '  ==>  ' + (d['new'] or '(removed)'),
            'claim_broken': d['claim'],
            'theorems_failed': thms,
            'examples_failed': ex,
            'lemmas_failed': d['inner'],
            'theorems_tightened': t}) + '\n')
