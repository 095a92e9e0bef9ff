#!/usr/bin/env python3
"""addnote.py Cxx status note...: records a note and rewrites MANIFEST.json."""
import json, sys, os, subprocess
root = os.path.dirname(os.path.dirname(os.path.abspath(__file__)))
f = root + '/tools/notes.json'
n = json.load(open(f))
n[sys.argv[1]] = [sys.argv[2], ' '.join(sys.argv[3:])]
open(f, 'w').write('{\n' + ',\n'.join(json.dumps(k) + ':' + json.dumps(n[k]) for k in sorted(n)) + '\n}\n')
subprocess.check_call([sys.executable, root + '/tools/manifest.py'])
