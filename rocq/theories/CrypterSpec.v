(** * What a user of the cipher expects, in terms of bytes, words and Threefish (TfSpec.v). *)
From Coq Require Import ZArith List Bool.
From Verif Require Import TfSpec.
Import ListNotations.
Open Scope Z_scope.

Definition byte (x : Z) : Prop := 0 <= x < 256.
Definition word (x : Z) : Prop := 0 <= x < 2 ^ 64.

(** Little-endian conversion between bytes and 64-bit words. *)
Definition word_of_bytes (b : list Z) : Z :=
  match b with
  | [b0; b1; b2; b3; b4; b5; b6; b7] =>
      b0 + 2^8 * b1 + 2^16 * b2 + 2^24 * b3 + 2^32 * b4 + 2^40 * b5 + 2^48 * b6 + 2^56 * b7
  | _ => 0
  end.
Fixpoint words_of_bytes (n : nat) (b : list Z) : list Z :=
  match n with
  | O => []
  | S n' => word_of_bytes (firstn 8 b) :: words_of_bytes n' (skipn 8 b)
  end.
Definition bytes_of_word (w : Z) : list Z :=
  [w mod 2^8; w / 2^8 mod 2^8; w / 2^16 mod 2^8; w / 2^24 mod 2^8;
   w / 2^32 mod 2^8; w / 2^40 mod 2^8; w / 2^48 mod 2^8; w / 2^56 mod 2^8].
Definition bytes_of_words (ws : list Z) : list Z := flat_map bytes_of_word ws.

(** The Threefish member for a key of n bytes. *)
Definition params_of (nbytes : nat) : option tf_params :=
  if Nat.eqb nbytes 32 then Some tf256
  else if Nat.eqb nbytes 64 then Some tf512
  else if Nat.eqb nbytes 128 then Some tf1024
  else None.

(** Threefish on byte blocks. *)
Definition tf_encrypt_bytes (p : tf_params) (key : list Z) (t0 t1 : Z) (block : list Z) : list Z :=
  bytes_of_words (threefish_encrypt word64 p (words_of_bytes (nw p) key) t0 t1
                                    (words_of_bytes (nw p) block)).
Definition tf_decrypt_bytes (p : tf_params) (key : list Z) (t0 t1 : Z) (block : list Z) : list Z :=
  bytes_of_words (threefish_decrypt word64 p (words_of_bytes (nw p) key) t0 t1
                                    (words_of_bytes (nw p) block)).

(** Memory regions. *)
Definition region (mem : list Z) (at_ n : nat) : list Z := firstn n (skipn at_ mem).
Definition overwrite (mem : list Z) (at_ : nat) (bs : list Z) : list Z :=
  firstn at_ mem ++ bs ++ skipn (at_ + length bs) mem.

(** The two tweak words a tweak argument sets; a nil tweak means (0,0) at construction. *)
Definition tweak_words (tw : option (list Z)) : option (Z * Z) :=
  match tw with
  | None => Some (0, 0)
  | Some (t0 :: t1 :: _) => Some (t0, t1)
  | Some _ => None
  end.
(** The member for a key of n words. *)
Definition params_of_words (nwords : nat) : option tf_params := params_of (8 * nwords).
