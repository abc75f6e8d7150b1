#!/usr/bin/env python3
"""add.py F1 F2 ...: append files to _CoqProject if missing."""
import sys, os
q=os.path.join(os.path.dirname(os.path.abspath(__file__)),'..','rocq','_CoqProject')
t=open(q).read().rstrip()+'\n'
for f in sys.argv[1:]:
    l=f'theories/{f}.v\n'
    if l not in t: t+=l
open(q,'w').write(t)
