#!/usr/bin/env python3
"""note.py Cnn "text": sets the manifest note of a property."""
import json
import sys

p = '/verif/tools/notes.json'
d = json.load(open(p))
d[sys.argv[1]] = {'note': sys.argv[2]}
json.dump(d, open(p, 'w'), indent=1, ensure_ascii=False)
