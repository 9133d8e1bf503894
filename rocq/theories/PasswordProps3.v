(** * C08, C10: Generate with the ints of the machine. *)
From Coq Require Import ZArith List Bool Permutation Lia.
From Verif Require Import PasswordModel PasswordSpec PasswordProofs PasswordProps PasswordInt.
Import ListNotations.
Open Scope Z_scope.

(** Only the number of letters depends on the length asked for. *)
Lemma generate_int fuel g rng len nd ns nu ar : GenerateInt fuel g rng len nd ns nu ar
  = Generate fuel g rng (wrap (wrap (len - nd) - ns) + nd + ns) nd ns nu ar.
Proof. unfold GenerateInt, Generate. replace (_ + nd + ns - nd - ns) with (wrap (wrap (len - nd) - ns)) by lia. reflexivity. Qed.

Lemma wrap_spec x : exists k, wrap x = x + 2 ^ 64 * k /\ int (wrap x).
Proof.
  unfold wrap, int. exists (- ((x + 2 ^ 63) / 2 ^ 64)). pose proof (Z.div_mod (x + 2 ^ 63) (2 ^ 64) ltac:(lia)). pose proof (Z.mod_pos_bound (x + 2 ^ 63) (2 ^ 64) ltac:(lia)). lia.
Qed.
Lemma wrap2 len nd ns : exists k, wrap (wrap (len - nd) - ns) = len - nd - ns + 2 ^ 64 * k /\ int (wrap (wrap (len - nd) - ns)).
Proof.
  destruct (wrap_spec (len - nd)) as [k1 [E1 _]]. destruct (wrap_spec (wrap (len - nd) - ns)) as [k2 [E2 I]]. exists (k1 + k2). split; [lia|exact I].
Qed.

(** ** C10  Counts that add up to an int are as good as exact numbers: every request of C08-C12 with such counts is answered as stated there. *)
Theorem C10_machine_ints fuel g rng len nd ns nu ar : -2 ^ 63 <= len - nd - ns < 2 ^ 63 ->
  GenerateInt fuel g rng len nd ns nu ar = Generate fuel g rng len nd ns nu ar.
Proof.
  intros R. rewrite generate_int. destruct (wrap2 len nd ns) as [k [E I]]. unfold int in I. rewrite E. f_equal. assert (k = 0) by lia. subst k. lia.
Qed.
Print Assumptions C10_machine_ints.

(** The greatest counts are not refused as exceeding the length, although they do; but no password that fits in memory comes of it. *)
Theorem C10_overflow_refuted fuel i rng len nd ns nu ar :
  let g := NewGenerator i in
  bytes rng -> gen_sets ascii g -> int len -> int nd -> int ns -> 0 <= len -> 0 <= nd -> 0 <= ns -> len + 2 ^ 63 < nd + ns ->
  GenerateInt fuel g rng len nd ns nu ar <> Err ErrExceedsTotalLength
  /\ forall w rest, GenerateInt fuel g rng len nd ns nu ar = Ok w rest -> 2 ^ 63 <= Z.of_nat (length w).
Proof.
  cbv zeta. unfold int. intros B G L D N L0 D0 N0 H. rewrite generate_int. destruct (wrap2 len nd ns) as [k [E I]]. unfold int in I. rewrite E in *.
  assert (k = 1) by lia. subst k. split.
  - intros E1. apply C10_refused_exactly in E1. lia.
  - intros w rest Hw. destruct (C08_composition _ _ _ _ _ _ _ _ _ _ B G D0 N0 Hw) as [Lw _]. lia.
Qed.
Print Assumptions C10_overflow_refuted.

(** ** C08  For every int: a password that fits in memory has the requested composition. *)
Theorem C08_machine_ints fuel g rng len nd ns nu ar w rest :
  bytes rng -> gen_sets ascii g -> int len -> int nd -> int ns -> 0 <= nd -> 0 <= ns ->
  GenerateInt fuel g rng len nd ns nu ar = Ok w rest -> Z.of_nat (length w) < 2 ^ 63 ->
  Z.of_nat (length w) = len /\
  exists ls ds ss, Permutation w (ls ++ ds ++ ss)
    /\ Z.of_nat (length ls) = len - nd - ns /\ Z.of_nat (length ds) = nd /\ Z.of_nat (length ss) = ns
    /\ (forall b, In b ls -> In b (lowerLetters g) \/ (nu = false /\ In b (upperLetters g)))
    /\ (forall b, In b ds -> In b (digits g)) /\ (forall b, In b ss -> In b (symbols g)).
Proof.
  unfold int. intros B G L D N D0 N0 H F. rewrite generate_int in H. destruct (wrap2 len nd ns) as [k [E I]].
  pose proof (C08_composition _ _ _ _ _ _ _ _ _ _ B G D0 N0 H) as [Lw C].
  assert (k = 0) by lia. subst k. replace (wrap (wrap (len - nd) - ns) + nd + ns) with len in * by lia. split; assumption.
Qed.
Print Assumptions C08_machine_ints.

(** ** Non-vacuity *)
Example overflow_example : int (2 ^ 63 - 1) /\ int 2 /\ 0 + 2 ^ 63 < (2 ^ 63 - 1) + 2
  /\ GenerateInt 5 (NewGenerator None) [1; 2; 3] 0 (2 ^ 63 - 1) 2 false true <> Err ErrExceedsTotalLength.
Proof.
  unfold int. split; [lia|]. split; [lia|]. split; [lia|]. apply C10_overflow_refuted; unfold int; try lia.
  - repeat constructor; lia.
  - apply default_ascii.
Qed.
