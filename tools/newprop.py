"""newprop.py FILE.json: append a property to gen_properties.py and its row to DESIGN.md section 3.
FILE.json: {title, statement, quantifier, why, anchors: [..], row: "modelled | proof"}."""
import json, os, re, subprocess, sys
here = os.path.dirname(os.path.abspath(__file__))
d = json.load(open(sys.argv[1]))
p = os.path.join(here, "gen_properties.py")
s = open(p).read()
i = s.index("out = os.path.join(")
call = "p(" + ",\n  ".join(json.dumps(d[k], ensure_ascii=False) for k in ("title", "statement", "quantifier", "why")) + ",\n  " + ", ".join(json.dumps(a) for a in d["anchors"]) + ")\n"
open(p, "w").write(s[:i] + call + s[i:])
out = subprocess.check_output([sys.executable, p], text=True).strip().split("\n")
cid = out[-1].split()[0]
q = os.path.join(here, "..", "DESIGN.md")
L = open(q).read().split("\n")
k = max(i for i, l in enumerate(L) if re.match(r"\| C\d\d+ \|", l))
L.insert(k + 1, f"| {cid} | {d['row']} |")
open(q, "w").write("\n".join(L))
print(out[-1])
