(** * The model against the repository's other unit tests (glob's are in GlobTests.v, Threefish's vectors in CrypterProps.v).
    These are checks of the model, not properties of the code: no claim rests on them. *)
From Coq Require Import String.
From Coq Require Import ZArith NArith Arith List Bool.
From Verif Require Import Gf256Model QrModel PasswordModel.
Import ListNotations.
Open Scope N_scope.

Definition data : list N := [0x10; 0x20; 0x0c; 0x56; 0x61; 0x80; 0xec; 0x11; 0xec; 0x11; 0xec; 0x11; 0xec; 0x11; 0xec; 0x11].
Definition check : list N := [0xa5; 0x24; 0xd4; 0xc1; 0xed; 0x36; 0xc7; 0x87; 0x2c; 0x55].
Definition check2 : list N := [0x29; 0x41; 0xb3; 0x93; 0x8; 0xe8; 0xa3; 0xe7; 0x63; 0x8f].
Definition ecc (c : nat) (d : list N) : option (list N) := option_map fst (ECC (NewRSEncoder QField c) d (repeat 0 c)).
(** /repo/qrterminal/qrcode/coding/qr_test.go:14-23, gf256_test.go:21-30 and :127-140 (the benchmark's vector). *)
Example test_ECC : ecc 10 data = Some check /\ ecc 10 (data ++ data) = Some check2.
Proof. split; vm_compute; reflexivity. Qed.
(** gf256_test.go:15-19. *)
Example test_Basic : Exp QField 0 = 1 /\ Exp QField 1 = 2 /\ Exp QField 255 = 1.
Proof. repeat apply conj; vm_compute; reflexivity. Qed.
(** gf256_test.go:32-57. *)
Example test_Linear : ecc 2 [0; 0] = Some [0; 0]
  /\ match ecc 2 [0; 1], ecc 2 [0; 2] with Some a, Some b => ecc 2 [0; 3] = Some (map (fun p => N.lxor (fst p) (snd p)) (combine a b)) | _, _ => False end.
Proof. split; vm_compute; reflexivity. Qed.
(** gf256_test.go:139-146, for the first 70 degrees (QR codes use at most 68). *)
Example test_Gen : forallb (fun i => match lgen QField i with 0 :: _ => true | _ => false end) (seq 0 70) = true.
Proof. vm_compute. reflexivity. Qed.
(** gf256_test.go:148-161: the numbers of irreducible polynomials of degree 2 to 11 (OEIS A1037). *)
Example test_Reducible :
  map (fun i => length (filter (fun k => negb (reducible (N.of_nat (Nat.pow 2 (i + 2) + k)))) (seq 0 (Nat.pow 2 (i + 2)))))
    (seq 0 10) = [1; 2; 3; 6; 9; 18; 30; 56; 99; 186]%nat.
Proof. vm_compute. reflexivity. Qed.

Open Scope Z_scope.
Definition mock (n : nat) : list Z := map (fun i => (Z.of_nat i + 1) mod 256) (seq 0 n).
Definition defaults : Generator := NewGenerator None.
(** /repo/password/generate_test.go:38-127 with MockReader: the refusals ... *)
Example test_refusals : forall rng,
  Generate 10 defaults rng 0 1 0 false false = Err ErrExceedsTotalLength /\ Generate 10 defaults rng 0 0 1 false false = Err ErrExceedsTotalLength
  /\ Generate 10 defaults rng 1000 0 0 false false = Err ErrLettersExceedsAvailable /\ Generate 10 defaults rng 52 11 0 false false = Err ErrDigitsExceedsAvailable
  /\ Generate 10 defaults rng 52 0 31 false false = Err ErrSymbolsExceedsAvailable.
Proof. intros rng. repeat apply conj; vm_compute; reflexivity. Qed.
(** password_doc_test.go:58-73. *)
Example test_mock : mock_MustGenerate (bytes_of_string "canned-response") None = Ok (bytes_of_string "canned-response") [].
Proof. reflexivity. Qed.
