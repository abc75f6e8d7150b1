#!/usr/bin/env python3
"""note.py Cxx text [status]: set the manifest note of a property."""
import sys, os, json
q=os.path.join(os.path.dirname(os.path.abspath(__file__)),'notes.json')
n=json.load(open(q)); e={"note":sys.argv[2]}
if len(sys.argv)>3: e["status"]=sys.argv[3]
n[sys.argv[1]]=e
json.dump(n,open(q,'w'),indent=1,ensure_ascii=False)
