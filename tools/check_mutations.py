#!/usr/bin/env python3
"""Every edit of seeded/mutations.py applies at exactly one place of the model, and only to model files."""
import sys; sys.path.insert(0, '/verif/seeded')
from mutations import MUTATIONS
bad = 0
for name, f, d, old, new, c, p in MUTATIONS:
    n = open('/verif/rocq/theories/' + f).read().count(old)
    if n != 1: print(name, f, d, n); bad += 1
print(len(MUTATIONS), 'mutations,', bad, 'do not apply')
