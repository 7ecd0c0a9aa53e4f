"""Writes MANIFEST.json from the table below."""
import json, os
here = os.path.dirname(os.path.abspath(__file__))
claims = []
def c(p, status, theorems, note):
    claims.append({"property": p, "status": status, "theorems": theorems.split(), "note": note})
exec(open(os.path.join(here, "manifest_table.py")).read())
json.dump({"claims": claims}, open(os.path.join(here, "MANIFEST.json"), "w"), indent=1)
