#!/usr/bin/env python3
"""Regenerates the last section of DESIGN.md (after the marker line) from Print Assumptions."""
import os,subprocess,sys
root=os.path.join(os.path.dirname(os.path.abspath(__file__)),'..'); p=os.path.join(root,'DESIGN.md'); s=open(p).read()
mark='(produced by `tools/assumptions.py`):\n'
i=s.index(mark)+len(mark)
out=subprocess.run([sys.executable,os.path.join(root,'tools/assumptions.py')],capture_output=True,text=True); assert out.returncode==0
open(p,'w').write(s[:i]+'\n'+out.stdout)
