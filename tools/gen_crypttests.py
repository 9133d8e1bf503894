#!/usr/bin/env python3
"""The test vectors of /repo/crypter/crypter_test.go:11-91 as Coq examples: rocq/theories/CrypterTests.v."""
import re
src = open('/repo/crypter/crypter_test.go').read()
v = {m.group(1): '[' + '; '.join(x.strip() for x in m.group(2).split(',')) + ']' for m in re.finditer(r'var (three_\w+) = \[\]uint64\{([^}]*)\}', src)}
out = ['''(** * The model and the specification of Threefish against the repository's Threefish test vectors.
    Written by tools/gen_crypttests.py from /repo/crypter/crypter_test.go:11-91.  Checks, not properties: no claim rests on them. *)
From Coq Require Import ZArith List Bool.
From Verif Require Import TfLang TfSpec CrypterModel CrypterSpec.
Import ListNotations.
Open Scope Z_scope.

Definition all (n : nat) : window := {| off := 0; cap := 8 * n |}.
(** Encrypting the input gives the result, after the feed forward of the plain text if the test makes one (crypter_test.go:143-147),
    and decrypting gives the input back: on words, on bytes as the test does it, and by the specification. *)
Definition vector (p : tf_params) (forward : bool) (key tweak input result : list Z) : Prop :=
  let out := if forward then map (fun x => Z.lxor (fst x) (snd x)) (combine result input) else result in
  let n := nw p in
  match New64 key (Some tweak), New (bytes_of_words key) (Some tweak) with
  | Ret c, Ret d =>
      option_map snd (Encrypt64 c input (0, n)%nat (0, n)%nat) = Some out /\\ option_map snd (Decrypt64 c out (0, n)%nat (0, n)%nat) = Some input
      /\\ option_map snd (Encrypt d (bytes_of_words input) (all n) (all n)) = Some (bytes_of_words out)
      /\\ option_map snd (Decrypt d (bytes_of_words out) (all n) (all n)) = Some (bytes_of_words input)
      /\\ threefish_encrypt word64 p key (nth 0 tweak 0) (nth 1 tweak 0) input = out
      /\\ threefish_decrypt word64 p key (nth 0 tweak 0) (nth 1 tweak 0) out = input
  | _, _ => False
  end.
''']
for size in (256, 512, 1024):
    for k in ('00', '01'):
        n = 'three_%d_%s' % (size, k)
        out.append('Example vector_%d_%s : vector tf%d %s\n  %s\n  %s\n  %s\n  %s.\nProof. vm_compute. repeat apply conj; reflexivity. Qed.' % (size, k, size, str(k == '01').lower(), *(v[n + '_' + x] for x in ('key', 'tweak', 'input', 'result'))))
open('/verif/rocq/theories/CrypterTests.v', 'w').write('\n'.join(out) + '\n')
