#!/usr/bin/env python3
"""usage: add.py Module ... : append the four files of each module to _CoqProject if missing"""
import sys,os
p='/verif/rocq/_CoqProject'
for m in sys.argv[1:]:
    s=open(p).read()
    for part in ('spec','model','proof','props'):
        f='theories/%s_%s.v'%(m,part)
        if os.path.exists('/verif/rocq/'+f) and f not in s: s=s.rstrip('\n')+'\n'+f+'\n'
    open(p,'w').write(s)
