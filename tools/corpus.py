#!/usr/bin/env python3
"""Writes rocq/theories/Validation/Corpus.v: the .po files of /repo/test as byte strings."""
import os
FILES = [("broken_po", "broken.po"), ("po_de", "po/de.po"), ("po_de_AT", "po/de_AT.po"), ("po_fr", "po/fr.po"),
         ("hello_de", "helloworld/de.po"), ("level_de", "level/de.po"), ("game_de", "game/de.po")]
def lit(line):
    o = ""
    for c in line:
        if c == 34: o += '""'
        elif c == 126 or c < 32 or c > 126: o += "~%02x" % c
        else: o += chr(c)
    return '"' + o + '"'
out = ['(** The catalogues of /repo/test, byte for byte; generated by tools/corpus.py. In the literals',
       '    "~" and two hexadecimal digits stand for the byte with that code. *)',
       'From Coq Require Import String Ascii.', 'From Verif.Model Require Import Base.', 'Local Open Scope list_scope.', '',
       'Definition hex (c : ascii) : N :=',
       '  let n := N_of_ascii c in if (n <? 58)%N then (n - 48)%N else (n - 87)%N.',
       'Fixpoint decode (s : string) : bytes :=',
       '  match s with',
       '  | EmptyString => []',
       '  | String c s\' =>',
       '      if Ascii.eqb c "~" then',
       '        match s\' with',
       '        | String a (String b s\'\') => chr (16 * hex a + hex b)%N :: decode s\'\'',
       '        | _ => []',
       '        end',
       '      else c :: decode s\'',
       '  end.',
       '(** lines, each ended by a newline, and the rest behind the last newline *)',
       'Definition text (lines : list string) (rest : string) : bytes :=',
       '  concat (List.map (fun l => decode l ++ [c_lf]) lines) ++ decode rest.', '']
for name, f in FILES:
    b = open("/repo/test/" + f, "rb").read()
    ls = b.split(b"\n")
    out.append('(** /repo/test/%s, %d bytes *)' % (f, len(b)))
    out.append('Definition %s : bytes := Eval vm_compute in text [' % name)
    out.append(";\n".join(lit(l) for l in ls[:-1]))
    out.append('  ]%%string %s.\n' % lit(ls[-1]))
p = os.path.join(os.path.dirname(os.path.abspath(__file__)), "..", "rocq", "theories", "Validation", "Corpus.v")
open(p, "w").write("\n".join(out))
