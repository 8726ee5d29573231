"""Try edited models: tools/mutate.py SPEC...  appends one line per edit to seeded/LOG.jsonl.

A spec file is a sequence of blocks
  @ DirModel.v | definition | claim it breaks | description
  - old text (one or more lines)
  + new text (one or more lines)
Each edit is applied to a scratch copy of rocq/ and the copy is rebuilt."""
import json, os, re, shutil, subprocess, sys
root = os.path.dirname(os.path.dirname(os.path.abspath(__file__)))
scratch = os.environ.get('MUT', '/tmp/mut/rocq')
def blocks(p):
    cur = None
    for ln in open(p).read().split('\n'):
        if ln.startswith('@'):
            if cur: yield cur
            f, d, c, t = [x.strip() for x in ln[1:].split('|')]
            cur = dict(file=f, defn=d, claim=c, text=t, old=[], new=[])
        elif ln.startswith('-'): cur['old'].append(ln[2:])
        elif ln.startswith('+'): cur['new'].append(ln[2:])
    if cur: yield cur
def enclosing(path, line):
    L = open(path).read().split('\n')
    for i in range(min(line, len(L)) - 1, -1, -1):
        m = re.match(r'(Theorem|Lemma|Example|Definition|Fixpoint|Corollary|Remark)\s+(\w+)', L[i])
        if m: return m.group(1), m.group(2)
    return '?', '?'
def run(b):
    src = os.environ.get('SRC', os.path.join(root, 'rocq'))
    if os.path.exists(scratch): shutil.rmtree(scratch)
    subprocess.run(['cp', '-a', src, scratch], check=True)
    p = os.path.join(scratch, 'theories', b['file']); s = open(p).read()
    old, new = '\n'.join(b['old']), '\n'.join(b['new'])
    if s.count(old) != 1:
        print('NOT UNIQUE (%d): %s' % (s.count(old), b['text'])); return
    open(p, 'w').write(s.replace(old, new))
    r = subprocess.run('make -k -j4 COQC="timeout 400 coqc" 2>&1', shell=True, cwd=scratch, stdout=subprocess.PIPE, universal_newlines=True)
    where = []
    for m in re.finditer(r'File "\./(theories/\w+\.v)", line (\d+), characters [\d-]+:\nError', r.stdout):
        k, n = enclosing(os.path.join(scratch, m.group(1)), int(m.group(2)))
        where.append((m.group(1), k, n))
    # theorems not accepted: in files not built, those at or after the failing point
    failed = []
    for ln in open(os.path.join(scratch, '_CoqProject')):
        f = ln.strip()
        if not f.endswith('Props.v'): continue
        vo = os.path.join(scratch, f[:-2] + '.vo'); t = open(os.path.join(scratch, f)).read()
        names = re.findall(r'^Theorem\s+(\w+)', t, flags=re.M)
        hit = [n for g, k, n in where if g == f]
        if hit:
            at = re.search(r'^\w+\s+%s\b' % re.escape(hit[0]), t, flags=re.M).start()
            failed += [n for n in names if re.search(r'^Theorem\s+%s\b' % n, t, flags=re.M).start() >= at]
        elif not os.path.exists(vo) or (os.path.getmtime(vo) < os.path.getmtime(p) and
                                        dep(f, b['file'])):
            failed += names
    ex = [n for f, k, n in where if k == 'Example']
    rec = {'definition': '%s: %s' % (b['file'], b['defn']), 'edit': b['text'], 'old': old, 'new': new,
           'claim': b['claim'], 'first_failure': ['%s:%s' % (f.split('/')[-1], n) for f, k, n in where],
           'theorems_failed': failed, 'theorems_tightened': []}
    with open(os.path.join(root, 'seeded', 'LOG.jsonl'), 'a') as g: g.write(json.dumps(rec) + '\n')
    st = 'no answer' if r.returncode and not where else 'SURVIVED' if not where else ('EXAMPLE ONLY' if len(ex) == len(where) else 'killed')
    print('%-12s %s | %s | %s' % (st, b['defn'], b['text'], ', '.join(rec['first_failure'])), flush=True)
def dep(f, g):
    seen, todo = set(), [f]
    while todo:
        x = todo.pop()
        if x in seen: continue
        seen.add(x)
        q = os.path.join(scratch, x)
        if os.path.exists(q):
            for m in re.finditer(r'From Verif Require (?:Import|Export) ([^.]*)\.', open(q).read()):
                todo += ['theories/%s.v' % n for n in m.group(1).split()]
    return 'theories/' + g in seen
for a in sys.argv[1:]:
    for b in blocks(a): run(b)
