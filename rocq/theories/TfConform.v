(** * The three unrolled bodies are Threefish (kernel-checked symbolic execution). *)
From Coq Require Import ZArith List Bool Lia.
From Verif Require Import TfLang TfSpec TfSym TfProofs TfCode256 TfCode512 TfCode1024.
Import ListNotations.
Open Scope Z_scope.

Lemma enc256_ok : enc_ok tf256 18 encrypt256_body = true.
Proof. vm_compute. reflexivity. Qed.
Lemma dec256_ok : dec_ok tf256 26 decrypt256_body = true.
Proof. vm_compute. reflexivity. Qed.
Lemma enc512_ok : enc_ok tf512 36 encrypt512_body = true.
Proof. vm_compute. reflexivity. Qed.
Lemma dec512_ok : dec_ok tf512 52 decrypt512_body = true.
Proof. vm_compute. reflexivity. Qed.
Lemma enc1024_ok : enc_ok tf1024 72 encrypt1024_body = true.
Proof. vm_compute. reflexivity. Qed.
Lemma dec1024_ok : dec_ok tf1024 104 decrypt1024_body = true.
Proof. vm_compute. reflexivity. Qed.

Section Conform.
  Variables input xk xt : list Z.
  Hypothesis Lt : length xt = 3%nat.

  Lemma encrypt256_conforms : length input = 4%nat -> length xk = 5%nat ->
    run_body 4 encrypt256_body input xk xt = enc_ext word64 tf256 xk xt input.
  Proof. intros. apply (enc_ok_sound tf256 18); try assumption; [exact enc256_ok | reflexivity]. Qed.
  Lemma decrypt256_conforms : length input = 4%nat -> length xk = 5%nat ->
    run_body 4 decrypt256_body input xk xt = dec_ext word64 tf256 xk xt input.
  Proof. intros. apply (dec_ok_sound tf256 26); try assumption; [exact dec256_ok | reflexivity]. Qed.
  Lemma encrypt512_conforms : length input = 8%nat -> length xk = 9%nat ->
    run_body 8 encrypt512_body input xk xt = enc_ext word64 tf512 xk xt input.
  Proof. intros. apply (enc_ok_sound tf512 36); try assumption; [exact enc512_ok | reflexivity]. Qed.
  Lemma decrypt512_conforms : length input = 8%nat -> length xk = 9%nat ->
    run_body 8 decrypt512_body input xk xt = dec_ext word64 tf512 xk xt input.
  Proof. intros. apply (dec_ok_sound tf512 52); try assumption; [exact dec512_ok | reflexivity]. Qed.
  Lemma encrypt1024_conforms : length input = 16%nat -> length xk = 17%nat ->
    run_body 16 encrypt1024_body input xk xt = enc_ext word64 tf1024 xk xt input.
  Proof. intros. apply (enc_ok_sound tf1024 72); try assumption; [exact enc1024_ok | reflexivity]. Qed.
  Lemma decrypt1024_conforms : length input = 16%nat -> length xk = 17%nat ->
    run_body 16 decrypt1024_body input xk xt = dec_ext word64 tf1024 xk xt input.
  Proof. intros. apply (dec_ok_sound tf1024 104); try assumption; [exact dec1024_ok | reflexivity]. Qed.
End Conform.
