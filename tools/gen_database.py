#!/usr/bin/env python3
"""Transcribe srg/database/problem_*.py to rocq/theories/Database.v.

The database files are read as text (never imported or run); each matrix row is
written as the number whose binary digits are the row, first entry first.
"""
import ast
import re
import sys
from pathlib import Path


def matrices(text):
    m = re.search(r'^solutions[^=]*=(.*)\Z', text, re.S | re.M)
    body = re.sub(r'#[^\n]*', '', m.group(1))
    body = re.sub(r'\barray\s*\(', '(', body)
    body = re.sub(r',\s*dtype\s*=\s*[\w.]+', '', body)
    return ast.literal_eval(body.strip())


def main(repo, out):
    files = []
    for p in (Path(repo) / 'srg' / 'database').glob('problem_*.py'):
        files.append((tuple(map(int, p.stem.split('_')[1:])), p))
    lines = ['(** The contents of srg/database/problem_*.py, written by',
             '    tools/gen_database.py: per file the parameters and the list [solutions];',
             '    a row is the number whose binary digits are its entries, first entry',
             '    first ([ModelDb.unpack] undoes this). *)',
             'From Coq Require Import ZArith List.',
             'Import ListNotations.',
             'Open Scope Z_scope.', '']
    names = []
    for (v, k, l, u), p in sorted(files):
        text = p.read_text()
        h = re.search(r'^v, k, l, u = (\d+), (\d+), (\d+), (\d+)', text, re.M)
        assert tuple(map(int, h.groups())) == (v, k, l, u), p
        sols = matrices(text)
        name = f'db_{v}_{k}_{l}_{u}'
        names.append(((v, k, l, u), name))
        lines.append(f'(** srg/database/{p.name} *)')
        ms = []
        for mat in sols:
            assert len(mat) == v and all(len(r) == v and set(r) <= {0, 1} for r in mat), p
            ms.append('[' + ';'.join(str(int(''.join(map(str, r)), 2)) for r in mat) + ']')
        lines.append(f'Definition {name} : list (list Z) :=\n  [' + ';\n   '.join(ms) + '].')
        lines.append('')
    lines.append('Definition database : list ((nat * Z * Z * Z) * list (list Z)) :=')
    lines.append('  [' + ';\n   '.join(f'(({v}%nat, {k}, {l}, {u}), {n})' for (v, k, l, u), n in names) + '].')
    Path(out).write_text('\n'.join(lines) + '\n')
    for (v, k, l, u), p in sorted(files):
        print(v, k, l, u, len(matrices(p.read_text())))


if __name__ == '__main__':
    main(*sys.argv[1:])
