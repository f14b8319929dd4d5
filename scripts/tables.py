"""Write rocq/theories/M_Tables.v from the tables of include/drt/color_maps.hpp.

Each decimal literal is a double; it is written as the pair (m, k) with value m / 2^k."""
import re, sys
src = sys.argv[1] if len(sys.argv) > 1 else '/repo/include/drt/color_maps.hpp'
text = open(src).read()
out = ['(** The tables of include/drt/color_maps.hpp, written by scripts/tables.py: each literal of the',
       '    source is a double, given exactly as the pair (m, k) with value m / 2^k. *)',
       'From Coq Require Import ZArith List.', 'Import ListNotations.', 'Local Open Scope Z_scope.', '']
for n, line in enumerate(text.split('\n'), 1):
    t = re.search(r'std::array<Real, 256> (\w+)\{([^}]*)\}', line)
    if not t:
        continue
    vals = [float(x) for x in t.group(2).split(',')]
    assert len(vals) == 256
    out.append('(* color_maps.hpp:%d *)' % n)
    out.append('Definition %s : list (Z * Z) := [' % t.group(1))
    rows, row = [], []
    for v in vals:
        m, d = v.as_integer_ratio()
        k = d.bit_length() - 1
        assert d == 1 << k and m / d == v and abs(m) < 1 << 53
        row.append('(%d,%d)' % (m, k))
        if len(row) == 6:
            rows.append('  ' + '; '.join(row)); row = []
    if row:
        rows.append('  ' + '; '.join(row))
    out.append(';\n'.join(rows) + '].')
    out.append('')
open(sys.argv[2] if len(sys.argv) > 2 else '/verif/rocq/theories/M_Tables.v', 'w').write('\n'.join(out))
