(** * The model and the specification of Threefish against the repository's Threefish test vectors.
    Written by tools/gen_crypttests.py from /repo/crypter/crypter_test.go:11-91.  Checks, not properties: no claim rests on them. *)
From Coq Require Import ZArith List Bool.
From Verif Require Import TfLang TfSpec CrypterModel CrypterSpec.
Import ListNotations.
Open Scope Z_scope.

Definition all (n : nat) : window := {| off := 0; cap := 8 * n |}.
(** Encrypting the input gives the result, after the feed forward of the plain text if the test makes one (crypter_test.go:143-147),
    and decrypting gives the input back: on words, on bytes as the test does it, and by the specification. *)
Definition vector (p : tf_params) (forward : bool) (key tweak input result : list Z) : Prop :=
  let out := if forward then map (fun x => Z.lxor (fst x) (snd x)) (combine result input) else result in
  let n := nw p in
  match New64 key (Some tweak), New (bytes_of_words key) (Some tweak) with
  | Ret c, Ret d =>
      option_map snd (Encrypt64 c input (0, n)%nat (0, n)%nat) = Some out /\ option_map snd (Decrypt64 c out (0, n)%nat (0, n)%nat) = Some input
      /\ option_map snd (Encrypt d (bytes_of_words input) (all n) (all n)) = Some (bytes_of_words out)
      /\ option_map snd (Decrypt d (bytes_of_words out) (all n) (all n)) = Some (bytes_of_words input)
      /\ threefish_encrypt word64 p key (nth 0 tweak 0) (nth 1 tweak 0) input = out
      /\ threefish_decrypt word64 p key (nth 0 tweak 0) (nth 1 tweak 0) out = input
  | _, _ => False
  end.

Example vector_256_00 : vector tf256 false
  [0; 0; 0; 0]
  [0; 0]
  [0; 0; 0; 0]
  [0x94EEEA8B1F2ADA84; 0xADF103313EAE6670; 0x952419A1F4B16D53; 0xD83F13E63C9F6B11].
Proof. vm_compute. repeat apply conj; reflexivity. Qed.
Example vector_256_01 : vector tf256 true
  [0x1716151413121110; 0x1F1E1D1C1B1A1918; 0x2726252423222120; 0x2F2E2D2C2B2A2928]
  [0x0706050403020100; 0x0F0E0D0C0B0A0908]
  [0xF8F9FAFBFCFDFEFF; 0xF0F1F2F3F4F5F6F7; 0xE8E9EAEBECEDEEEF; 0xE0E1E2E3E4E5E6E7]
  [0x277610F5036C2E1F; 0x25FB2ADD1267773E; 0x9E1D67B3E4B06872; 0x3F76BC7651B39682].
Proof. vm_compute. repeat apply conj; reflexivity. Qed.
Example vector_512_00 : vector tf512 false
  [0; 0; 0; 0; 0; 0; 0; 0]
  [0; 0]
  [0; 0; 0; 0; 0; 0; 0; 0]
  [0xBC2560EFC6BBA2B1; 0xE3361F162238EB40; 0xFB8631EE0ABBD175; 0x7B9479D4C5479ED1; 0xCFF0356E58F8C27B; 0xB1B7B08430F0E7F7; 0xE9A380A56139ABF1; 0xBE7B6D4AA11EB47E].
Proof. vm_compute. repeat apply conj; reflexivity. Qed.
Example vector_512_01 : vector tf512 true
  [0x1716151413121110; 0x1F1E1D1C1B1A1918; 0x2726252423222120; 0x2F2E2D2C2B2A2928; 0x3736353433323130; 0x3F3E3D3C3B3A3938; 0x4746454443424140; 0x4F4E4D4C4B4A4948]
  [0x0706050403020100; 0x0F0E0D0C0B0A0908]
  [0xF8F9FAFBFCFDFEFF; 0xF0F1F2F3F4F5F6F7; 0xE8E9EAEBECEDEEEF; 0xE0E1E2E3E4E5E6E7; 0xD8D9DADBDCDDDEDF; 0xD0D1D2D3D4D5D6D7; 0xC8C9CACBCCCDCECF; 0xC0C1C2C3C4C5C6C7]
  [0xD4A32EDD6ABEFA1C; 0x6AD5C4252C3FF743; 0x35AC875BE2DED68C; 0x99A6C774EA5CD06C; 0xDCEC9C4251D7F4F8; 0xF5761BCB3EF592AF; 0xFCABCB6A3212DF60; 0xFD6EDE9FF9A2E14E].
Proof. vm_compute. repeat apply conj; reflexivity. Qed.
Example vector_1024_00 : vector tf1024 false
  [0; 0; 0; 0; 0; 0; 0; 0; 0; 0; 0; 0; 0; 0; 0; 0]
  [0; 0]
  [0; 0; 0; 0; 0; 0; 0; 0; 0; 0; 0; 0; 0; 0; 0; 0]
  [0x04B3053D0A3D5CF0; 0x0136E0D1C7DD85F7; 0x067B212F6EA78A5C; 0x0DA9C10B4C54E1C6; 0x0F4EC27394CBACF0; 0x32437F0568EA4FD5; 0xCFF56D1D7654B49C; 0xA2D5FB14369B2E7B; 0x540306B460472E0B; 0x71C18254BCEA820D; 0xC36B4068BEAF32C8; 0xFA4329597A360095; 0xC4A36C28434A5B9A; 0xD54331444B1046CF; 0xDF11834830B2A460; 0x1E39E8DFE1F7EE4F].
Proof. vm_compute. repeat apply conj; reflexivity. Qed.
Example vector_1024_01 : vector tf1024 true
  [0x1716151413121110; 0x1F1E1D1C1B1A1918; 0x2726252423222120; 0x2F2E2D2C2B2A2928; 0x3736353433323130; 0x3F3E3D3C3B3A3938; 0x4746454443424140; 0x4F4E4D4C4B4A4948; 0x5756555453525150; 0x5F5E5D5C5B5A5958; 0x6766656463626160; 0x6F6E6D6C6B6A6968; 0x7776757473727170; 0x7F7E7D7C7B7A7978; 0x8786858483828180; 0x8F8E8D8C8B8A8988]
  [0x0706050403020100; 0x0F0E0D0C0B0A0908]
  [0xF8F9FAFBFCFDFEFF; 0xF0F1F2F3F4F5F6F7; 0xE8E9EAEBECEDEEEF; 0xE0E1E2E3E4E5E6E7; 0xD8D9DADBDCDDDEDF; 0xD0D1D2D3D4D5D6D7; 0xC8C9CACBCCCDCECF; 0xC0C1C2C3C4C5C6C7; 0xB8B9BABBBCBDBEBF; 0xB0B1B2B3B4B5B6B7; 0xA8A9AAABACADAEAF; 0xA0A1A2A3A4A5A6A7; 0x98999A9B9C9D9E9F; 0x9091929394959697; 0x88898A8B8C8D8E8F; 0x8081828384858687]
  [0x483AC62C27B09B59; 0x4CB85AA9E48221AA; 0x80BC1644069F7D0B; 0xFCB26748FF92B235; 0xE83D70243B5D294B; 0x316A3CA3587A0E02; 0x5461FD7C8EF6C1B9; 0x7DD5C1A4C98CA574; 0xFDA694875AA31A35; 0x03D1319C26C2624C; 0xA2066D0DF2BF7827; 0x6831CCDAA5C8A370; 0x2B8FCD9189698DAC; 0xE47818BBFD604399; 0xDF47E519CBCEA541; 0x5EFD5FF4A5D4C259].
Proof. vm_compute. repeat apply conj; reflexivity. Qed.
