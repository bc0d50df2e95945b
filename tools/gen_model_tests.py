#!/usr/bin/env python3
"""Generate rocq/theories/ModelTests.v: the repository's own parser snapshots
(crates/syntax/test_data/parser) replayed on the model."""
import ast, glob, os, re
base = '/repo/crates/syntax/test_data/parser'
out = ['''(** Generated by tools/gen_model_tests.py from
    crates/syntax/test_data/parser/{ok,err}: the model is run on the snapshot
    inputs and must give the snapshot outputs.  These are tests of the model's
    fidelity, not proofs of properties. *)
From Verif Require Import Base Kinds Lexer Parser Grammar Sink.
Local Open Scope N_scope.

(** The lines of [Parse::debug_dump] (crates/syntax/src/lib.rs:88-95): depth,
    kind, range and, for tokens, text. *)
Definition dump_line : Type := nat * kind * N * N * option text.
Fixpoint dump (depth : nat) (pos : N) (g : green) : N * list dump_line :=
  match g with
  | GTok k t => (pos + tlen t, [(depth, k, pos, pos + tlen t, Some t)])
  | GNode k cs =>
      let (end_, lines) :=
        (fix go pos cs := match cs with
          | [] => (pos, [])
          | c :: r => let (p1, l1) := dump (S depth) pos c in
                      let (p2, l2) := go p1 r in (p2, l1 ++ l2)
          end) pos cs in
      (end_, (depth, k, pos, end_, None) :: lines)
  end.
Definition debug_dump (t : text) : res (list dump_line * list (N * text)) :=
  let! (g, errs) := source_file_parse t in
  Ok (snd (dump 0 0 g), map (fun e => (se_pos e, se_msg e)) errs).
''']
def txt(s): return '[' + '; '.join(str(ord(c)) for c in s) + ']'
for f in sorted(glob.glob(base + '/*/*.move')):
    name = os.path.basename(f)[:-5]
    src = open(f, newline='').read()
    exp = open(f[:-5] + '.txt', newline='').read()
    lines, errs = [], []
    for l in exp.split('\n'):
        if not l.strip(): continue
        m = re.match(r'^error (\d+)\.\.(\d+): (.*)$', l)
        if m:
            assert m.group(1) == m.group(2)
            errs.append((int(m.group(1)), m.group(3))); continue
        m = re.match(r'^( *)([A-Z_]+)@(\d+)\.\.(\d+)(?: (".*"))?$', l)
        d, k, a, b, t = m.groups()
        lines.append('(%d%%nat, %s, %s, %s, %s)' % (len(d)//2, k, a, b,
            'None' if t is None else 'Some ' + txt(ast.literal_eval(t))))
    out.append('(** %s *)' % f[len('/repo/'):])
    out.append('Example snapshot_%s :\n  debug_dump\n    %s =\n  Ok ([%s],\n      [%s]).' % (
        name, txt(src), ';\n       '.join(lines),
        '; '.join('(%d, %s)' % (p, txt(m)) for p, m in errs)))
    out.append('Proof. vm_compute. reflexivity. Qed.\n')
open('/verif/rocq/theories/ModelTests.v', 'w').write('\n'.join(out))
