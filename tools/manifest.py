#!/usr/bin/env python3
"""Generates MANIFEST.json: claims listed here, everything else absent until proved."""
import json, os, re
here = os.path.dirname(os.path.abspath(__file__))
CLAIMS = {
 "C01": ("proved", ["C01_find_is_successor"], ""),
 "C02": ("proved", ["C02_ring_is_map"], ""),
 "C03": ("proved", ["C03_minimal_disruption"], ""),
 "C04": ("proved", ["C04_overrides"], ""),
 "C05": ("partial", ["C05_clear_partial", "C05_clear_refuted"], "violated by the code: clear keeps overrides"),
 "C06": ("partial", ["C06_concurrent_ring_partial", "C06_override_refuted"], "node-table clauses proved (linearizability, no deadlock); the set_overrides clause is violated by the code"),
 "C07": ("proved", ["C07_round_trip", "C07_wire_view_exact"], ""),
 "C08": ("proved", ["C08_stream_chunking"], ""),
 "C09": ("proved", ["C09_incomplete_frame", "C09_incomplete_unit"], ""),
 "C10": ("partial", ["C10_boundaries_partial", "C10_encoded_units", "C10_boundaries_refuted"], "violated by the code for units whose body ends inside a frame; proved for all others"),
}
exec(open(os.path.join(here, "claims_more.py")).read()) if os.path.exists(os.path.join(here, "claims_more.py")) else None
out = {"claims": [{"property": k, "status": s, "theorems": t, "note": n} for k, (s, t, n) in sorted(CLAIMS.items())]}
src = "".join(open(os.path.join(here, "../rocq/theories", f)).read() for f in os.listdir(os.path.join(here, "../rocq/theories")) if f.endswith(".v"))
for c in out["claims"]:
    for t in c["theorems"]:
        if not re.search(r"(Theorem|Lemma|Corollary)\s+%s\b" % t, src): print("MISSING", c["property"], t)
json.dump(out, open(os.path.join(here, "../MANIFEST.json"), "w"), indent=1)
props = [json.loads(l)["id"] for l in open(os.path.join(here, "../properties.jsonl"))]
print("no claim yet:", [p for p in props if p not in CLAIMS])
