#!/usr/bin/env python3
"""Lists, for every Go file of the repository, the functions whose lines are cited by the
comments of the model and those that are not.  Reads /repo as text."""
import os, re, sys, glob, collections

REPO = '/repo'
files = {}
for d, _, fs in os.walk(REPO):
    for f in fs:
        if f.endswith('.go') and not f.endswith('_test.go'):
            p = os.path.relpath(os.path.join(d, f), REPO)
            files[p] = open(os.path.join(d, f)).read().split('\n')
by_base = collections.defaultdict(list)
for p in files:
    by_base[os.path.basename(p)].append(p)

def functions(lines):
    out, i = [], 0
    while i < len(lines):
        m = re.match(r'func (\([^)]*\) )?(\w+)', lines[i])
        if m:
            j = i
            if not lines[i].rstrip().endswith('}') or lines[i].rstrip().endswith('{}') is False and '{' not in lines[i]:
                while j < len(lines) and lines[j] != '}':
                    j += 1
            recv = ''
            if m.group(1):
                recv = re.sub(r'[()*]', '', m.group(1)).split()[-1].split('[')[0] + '.'
            out.append((recv + m.group(2), i + 1, j + 1))
            i = j
        i += 1
    return out

cited = collections.defaultdict(set)   # go file -> lines
who = collections.defaultdict(set)     # go file -> model files
for v in sorted(glob.glob(os.path.join(os.path.dirname(__file__), '../rocq/theories/*.v'))):
    if v.endswith(('Spec.v', 'Proofs.v', 'Props.v', 'Facts.v')):
        continue
    text = open(v).read()
    current = None
    for m in re.finditer(r'((?:[\w./-]*/)?[\w-]+\.go)((?:[:, ]+(?:and )?:?\d+(?:-\d+)?)*)|(?<![\w.])(?::)(\d+-\d+)', text):
        if m.group(1):
            name = m.group(1).replace('/repo/', '').lstrip('/')
            cand = [name] if name in files else [p for p in by_base[os.path.basename(name)] if p.endswith(name)]
            if not cand:
                continue
            if len(cand) > 1 and current in cand:
                cand = [current]
            current = cand[0]
            nums = m.group(2)
        else:
            nums = m.group(3)
        if current is None:
            continue
        who[current].add(os.path.basename(v)[:-2])
        for a, b in re.findall(r'(\d+)(?:-(\d+))?', nums or ''):
            cited[current].update(range(int(a), int(b or a) + 1))

print('# Which functions of the Go code the model cites\n')
print('Generated by `tools/gen_coverage.py` from the citations in the model files. "cited" means that')
print('lines of the body are cited by a definition of the model; the comment there states what is')
print('simplified.\n')
tot = cov = 0
rows = []
for p in sorted(files):
    if re.search(r'_enum\.go$|mock_|\.gen\.go$|/mock', p):
        continue
    fs = functions(files[p])
    if not fs:
        continue
    yes = [n for n, a, b in fs if any(x in cited[p] for x in range(a, b + 1))]
    no = [n for n, a, b in fs if n not in yes]
    tot += len(fs); cov += len(yes)
    rows.append('| %s | %s | %s | %s |' % (p, ', '.join(sorted(who[p])) or '–', ', '.join(yes) or '–', ', '.join(no) or '–'))
print('%d of %d functions are cited.\n' % (cov, tot))
print('| Go file | model | cited | not cited |\n|---|---|---|---|')
print('\n'.join(rows))
