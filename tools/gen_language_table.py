#!/usr/bin/env python3
"""Generates Model/LanguageTable.v from /repo/src/language.cpp (tables only)."""
import re, os
src = open("/repo/src/language.cpp", encoding="utf-8").read().split("\n")
tok = r'("(?:[^"\\]|\\.)*"|0|NULL)'
row = re.compile(r"^\s*\{\s*" + r"\s*,\s*".join([tok]*5) + r"\s*\},?\s*$")
out, first, last = [], None, None
for ln, l in enumerate(src, 1):
    m = row.match(l)
    if m:
        if m[1] == "NULL":
            last = ln
            break
        first = first or ln
        out.append([m[i] for i in range(1, 6)])
# every line between first and last must have been a row
assert last - first == len(out), (first, last, len(out))
al = []
alre = re.compile(r'^\s*language_aliases\["([^"]*)"\]\s*=\s*"([^"]*)";\s*$')
afirst = alast = None
for ln, l in enumerate(src, 1):
    m = alre.match(l)
    if m:
        afirst = afirst or ln; alast = ln
        al.append((m[1], m[2]))
assert alast - afirst + 1 == len(al)
assert len({a for a, _ in al}) == len(al)
def opt(x): return "None" if x in ("0", "NULL") else f"(Some {x})"
with open(os.path.join(os.path.dirname(os.path.abspath(__file__)), "../rocq/theories/Model/LanguageTable.v"), "w", encoding="utf-8") as f:
    f.write(f'''(** GENERATED by tools/gen_language_table.py from /repo/src/language.cpp.
    [raw_languages]: the array [languages] without its NULL terminator,
    language.cpp:{first}-{last-1}, in source order: language, country, modifier, name,
    name_localized ([None] is a null pointer).
    [raw_aliases]: the table of resolve_language_alias, language.cpp:{afirst}-{alast}. *)
From Coq Require Import List String.
Import ListNotations.
Local Open Scope string_scope.

Definition raw_languages
  : list (string * option string * option string * string * option string) := [
''')
    f.write(";\n".join(f"  ({a}, {opt(b)}, {opt(c)}, {d}, {opt(e)})" for a, b, c, d, e in out))
    f.write("\n].\n\nDefinition raw_aliases : list (string * string) := [\n")
    f.write(";\n".join(f'  ("{a}", "{b}")' for a, b in al))
    f.write("\n].\n")
print(len(out), first, last, len(al), afirst, alast)
