"""Check (and with --fix, correct) the line ranges cited in model comments.

A citation is "name, lib/x.c:A-B" or, after a file was named, "name A-B"."""
import os, re, sys
root = os.path.dirname(os.path.dirname(os.path.abspath(__file__)))
th = os.path.join(root, 'rocq', 'theories')
REPO = '/repo'
cache = {}
def ranges(f):
    if f in cache: return cache[f]
    out = {}
    p = os.path.join(REPO, f)
    if os.path.exists(p):
        L = open(p).read().split('\n'); i = 0
        while i < len(L):
            if L[i].startswith('{'):
                j = i - 1
                while j >= 0 and L[j].strip() and not L[j].startswith('}') and not L[j].startswith('#') and not L[j].strip().endswith('*/'): j -= 1
                m = re.search(r'(\w+)\s*\(', ' '.join(L[j+1:i])); k = i
                while not L[k].startswith('}'): k += 1
                if m: out[m.group(1)] = (j + 2, k + 1)
                i = k
            i += 1
    cache[f] = out
    return out
fix = '--fix' in sys.argv
files = [a for a in sys.argv[1:] if a.endswith('.v')] or sorted(f for f in os.listdir(th) if f.endswith('.v'))
for f in files:
    p = os.path.join(th, os.path.basename(f)); s = open(p).read(); nfix = 0
    def comment(m):
        global nfix
        c = m.group(0); cur = [None]
        def tok(t):
            global nfix
            if t.group('path'): cur[0] = t.group('path')
            if not cur[0]: return t.group(0)
            r = ranges(cur[0]).get(t.group('n'))
            if r is None:
                print('%s: no function %s in %s' % (f, t.group('n'), cur[0])); return t.group(0)
            want = '%d-%d' % r
            if want != t.group('rg'):
                nfix += 1
                print('%s: %s cited %s, is %s' % (f, t.group('n'), t.group('rg'), want))
                return t.group(0)[:-len(t.group('rg'))] + want
            return t.group(0)
        return re.sub(r'(?P<n>[A-Za-z_]\w{4,})(?:,?\s+|\s*\()(?:(?P<path>(?:lib|include|cmd|mntd)/[\w/]+\.[ch]):)?(?P<rg>\d+-\d+)(?!\d)', tok, c)
    t = re.sub(r'\(\*.*?\*\)', comment, s, flags=re.S)
    if fix and t != s: open(p, 'w').write(t)
