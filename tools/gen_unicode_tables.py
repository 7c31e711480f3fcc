#!/usr/bin/env python3
"""Generate rocq/theories/UnicodeTables.v from the tables in text.c."""
import re
src = open('/repo/src/main/c/parts/text.c').read()
out = ['(** Generated by tools/gen_unicode_tables.py from',
       '    /repo/src/main/c/parts/text.c:706-838: the tables unicode_Ll, unicode_Lu, ... *)',
       'From Coq Require Import ZArith List.', 'Import ListNotations.', 'Local Open Scope Z_scope.', '']
names = []
for m in re.finditer(r'int unicode_(\w+)\[\] *= *\{([^}]*)\}', src):
    vals = [int(x, 0) for x in m.group(2).split(',') if x.strip()]
    name = m.group(1)
    chunks = [vals[i:i+400] for i in range(0, len(vals), 400)]
    for k, c in enumerate(chunks):
        out.append('Definition unicode_%s_%d : list Z := [' % (name, k))
        lines = ['  ' + '; '.join(str(v) if v >= 0 else '(%d)' % v for v in c[i:i+16]) for i in range(0, len(c), 16)]
        out.append(';\n'.join(lines) + '].')
    out.append('Definition unicode_%s : list Z := %s.' % (name, ' ++ '.join('unicode_%s_%d' % (name, k) for k in range(len(chunks)))))
    names.append(name)
out.append('')
out.append('Definition unicode_tables : list (list Z) :=')
out.append('  [' + '; '.join('unicode_' + n for n in names) + '].')
open('/verif/rocq/theories/UnicodeTables.v', 'w').write('\n'.join(out) + '\n')
