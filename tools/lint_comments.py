"""List model definitions that have no comment directly above them."""
import glob, os, re, sys
root = os.path.join(os.path.dirname(os.path.abspath(__file__)), '..', 'rocq', 'theories')
bad = 0
for p in sorted(glob.glob(os.path.join(root, '*_Model.v')) + [os.path.join(root, 'Base.v')]):
    lines = open(p).read().split('\n')
    for i, l in enumerate(lines):
        m = re.match(r'\s*(Definition|Fixpoint|Record|Inductive|Variant)\s+(\w+)', l)
        if m and not (lines[i-1].rstrip().endswith('*)') or '(*' in l):
            bad += 1
            print('%s:%d %s' % (os.path.basename(p), i + 1, m.group(2)))
sys.exit(1 if bad else 0)
