#!/usr/bin/env python3
"""Writes rocq/theories/Golden.v from the test cases in /repo/wayfinder-tests/cases;
with the argument goal, rocq/theories/GoalText.v from /repo/wayfinder-goal."""
import os, sys
CASES = '/repo/wayfinder-tests/cases'
def lines(path):
    t = open(path).read()
    assert t.endswith('\n') and t.isascii()
    ls = t[:-1].split('\n')
    return '[ ' + ';\n    '.join('"' + l.replace('"', '""') + '"' for l in ls) + ' ]%string'
if sys.argv[1:] == ['goal']:
    print('''(** * GoalText: wayfinder-goal/src/routes.rs, the module that the generator was written towards.

    Generated by tools/golden.py from the file of the repository. *)
From Verif Require Import Base Core Golden.

Definition goal_rs : list string :=
  %s.''' % lines('/repo/wayfinder-goal/src/routes.rs'))
    sys.exit()
out = ['''(** * Golden: the repository's own test cases, evaluated in the model.

    Generated by tools/golden.py from /repo/wayfinder-tests/cases: the text of
    each routes.routes file, parsed by the model of the parser and passed to the
    model of the code generator, must give the text of routes.rs.  These are
    tests of the model, not proofs about it. *)
From Verif Require Import Base Core Nom Parse Trie Flat MiniRust Gen.

Definition unlines (l : list string) : str := concat (map (fun s => lit s ++ nl) l).
Definition no_ualnum (c : char) : bool := false.
Definition generated (src : str) : option str :=
  match route_config_p no_ualnum src with
  | POk [] c => match codegen c with
                | (l, ROk tt) => Some (concat l)
                | _ => None
                end
  | _ => None
  end.
''']
for c in sorted(os.listdir(CASES)):
    out.append('Definition %s_routes : list string :=\n  %s.\n' % (c, lines(f'{CASES}/{c}/routes.routes')))
    out.append('Definition %s_rs : list string :=\n  %s.\n' % (c, lines(f'{CASES}/{c}/routes.rs')))
    out.append('Example golden_%s : generated (unlines %s_routes) = Some (unlines %s_rs).\nProof. vm_compute. reflexivity. Qed.\n' % (c, c, c))
print('\n'.join(out), end='')
