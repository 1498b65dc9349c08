#!/usr/bin/env python3
"""Generates rocq/theories/Data.v and Rafsi.v from the text of data.py and rafsi.py (read, never imported)."""
import ast, textwrap
R = '/repo/py/latkerlo_jvotci/'
OUT = '/verif/rocq/theories/'
t = ast.parse(open(R + 'data.py').read())
out = ['(** The tables of data.py, transcribed (generated from the text of the file by',
       '    tools/gen_data.py; each definition cites its lines). *)',
       'From Verif Require Import Str.', '',
       'Definition Ls (l : list string) : list str := map L l.', 'Arguments Ls l%list_scope.']
for n in t.body:
    if not isinstance(n, ast.Assign):
        continue
    name = n.targets[0].id
    out += ['', f'(** data.py:{n.lineno}-{n.end_lineno} *)']
    if name == 'MZ_VALID':
        out.append('Definition MZ_VALID : list str := VALID ++ Ls ["mz"%string].')
        continue
    body = '; '.join('"%s"' % e.value for e in n.value.elts)
    out.append(f'Definition {name} : list str := Eval vm_compute in Ls [\n'
               + textwrap.fill(body, 76, initial_indent='  ', subsequent_indent='  ') + ']%string.')
open(OUT + 'Data.v', 'w').write('\n'.join(out) + '\n')
d = ast.parse(open(R + 'rafsi.py').read()).body[0].value
out = ['(** RAFSI_LIST of rafsi.py:1-2023, transcribed in file order (generated from the',
       '    text of the file by tools/gen_data.py).  A Python dict iterates in insertion',
       '    order and the file has no duplicate key, so an association list is faithful. *)',
       'From Verif Require Import Str.', '',
       'Definition raw_rafsi : list (string * list string) := [']
out.append(';\n'.join('  ("%s", [%s])' % (k.value, '; '.join('"%s"' % x.value for x in v.elts))
                      for k, v in zip(d.keys, d.values)))
out += [']%string.', '', '(** rafsi.py:1-2023 *)',
        'Definition RAFSI_LIST : list (str * list str) :=\n'
        '  Eval vm_compute in map (fun kv => (L (fst kv), map L (snd kv))) raw_rafsi.']
open(OUT + 'Rafsi.v', 'w').write('\n'.join(out) + '\n')
