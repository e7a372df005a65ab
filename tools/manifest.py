#!/usr/bin/env python3
# Generates MANIFEST.json from the table below: (property, status, theorems, note)
import json, os, glob
C = []
def c(prop, status, theorems, note=""):
    C.append({"property": prop, "status": status, "theorems": theorems.split(), "note": note})

c("C01", "proved", "C01_exactly_one_place C01_fill C01_Bin C01_Bin_gap_panics_refuted",
  "Bin(x) panics for x in a gap between bins; NaN is counted as overflow.")
c("C02", "proved", "C02_fill_history", "Holds for any arithmetic; int64 counter overflow not modelled.")
c("C03", "proved", "C03_FromEdges_panics C03_FromEdges C03_FromBins C03_FromEdges_accepts_NaN_refuted",
  "NaN edges at the front are accepted by NewH1DFromEdges.")
c("C04", "proved", "C04_add_scaled C04_add C04_sub C04_add_checks_binning_refuted",
  "Any commutative ring. AddH1D does not compare inner edges.")
c("C05", "proved", "C05_scale C05_integral0 C05_integral2 C05_integral_full", "Any commutative ring.")
c("C06", "proved", "C06_H2D_history C06_H2D_accepts", "")

here = os.path.dirname(os.path.abspath(__file__))
for f in sorted(glob.glob(os.path.join(here, "manifest_*.py"))):
    exec(open(f).read())
json.dump({"claims": C}, open(os.path.join(here, "..", "MANIFEST.json"), "w"), indent=1)
