#!/usr/bin/env python3
"""Writes rocq/theories/QrVtab.v from /repo/qrterminal/qrcode/coding/qr.go (var vtab)."""
import re, os
root = os.path.dirname(os.path.dirname(os.path.abspath(__file__)))
src = open("/repo/qrterminal/qrcode/coding/qr.go").read().split("\n")
start = next(i for i, l in enumerate(src) if l.startswith("var vtab"))
end = next(i for i in range(start, len(src)) if src[i] == "}")
out = ["(** Generated by tools/gen_vtab.py from coding/qr.go:%d-%d (var vtab); entry 0 is the zero value.  Do not edit. *)" % (start + 1, end + 1),
       "From Coq Require Import NArith List.", "Import ListNotations.", "Open Scope nat_scope.", "",
       "(** types version and level (coding/qr.go:%d-%d). *)" % (next(i for i, l in enumerate(src) if l.startswith("type version"))+1, next(i for i, l in enumerate(src) if l.startswith("type level"))+4),
       "Record version := { apos : nat; astride : nat; vbytes : nat; pattern : N; levels : list (nat * nat) }.",
       "Definition mkv a s b p l := {| apos := a; astride := s; vbytes := b; pattern := p; levels := l |}.",
       "Definition vtab : list version := ["]
rows = ["  mkv 0 0 0 0%N [(0, 0); (0, 0); (0, 0); (0, 0)]"]
for l in src[start + 2:end]:
    n = re.findall(r"0x[0-9a-f]+|\d+", l.split("//")[0].replace("[4]level", ""))
    lv = [(n[4 + 2 * k], n[5 + 2 * k]) for k in range(4)]
    rows.append("  mkv %s %s %s %s%%N [%s]" % (n[0], n[1], n[2], n[3], "; ".join("(%s, %s)" % p for p in lv)))
assert len(rows) == 41
out.append(";\n".join(rows))
out.append("].")
open(f"{root}/rocq/theories/QrVtab.v", "w").write("\n".join(out) + "\n")
