(** * Algebra of GF(2)[x] on N, and correctness of polyDiv, mul and reducible. *)
From Coq Require Import NArith ZArith List Bool Lia Arith.
From Verif Require Import Gf256Model Gf256Spec.
Import ListNotations.
Open Scope N_scope.

Lemma double_lxor a b : N.double (N.lxor a b) = N.lxor (N.double a) (N.double b).
Proof. destruct a as [|p], b as [|q]; reflexivity. Qed.
Lemma double_shiftl a : N.double a = N.shiftl a 1.
Proof. rewrite N.shiftl_mul_pow2. rewrite N.double_spec. change (2 ^ 1) with 2. lia. Qed.

Lemma lxor_swap a b c d : N.lxor (N.lxor a b) (N.lxor c d) = N.lxor (N.lxor a c) (N.lxor b d).
Proof. rewrite !N.lxor_assoc. f_equal. rewrite <- !N.lxor_assoc. f_equal. apply N.lxor_comm. Qed.

(** ** clmul is a commutative ring product *)
Lemma clmul_0_l y : clmul 0 y = 0. Proof. reflexivity. Qed.
Lemma clmul_0_r x : clmul x 0 = 0.
Proof. destruct x as [|p]; [reflexivity|]. cbn. induction p as [p IH|p IH|]; cbn; rewrite ?IH; reflexivity. Qed.
Lemma clmul_1_l y : clmul 1 y = y. Proof. reflexivity. Qed.
Lemma clmul_double_l x y : clmul (N.double x) y = N.double (clmul x y).
Proof. destruct x; reflexivity. Qed.
Lemma clmul_succ_double_l x y : clmul (N.succ_double x) y = N.lxor y (N.double (clmul x y)).
Proof. destruct x; cbn; [rewrite N.lxor_0_r; reflexivity|reflexivity]. Qed.
Lemma clmul_double_r x y : clmul x (N.double y) = N.double (clmul x y).
Proof.
  induction x as [|x IH|x IH] using N.binary_ind; [reflexivity| |].
  - rewrite !clmul_double_l, IH. reflexivity.
  - rewrite !clmul_succ_double_l, IH, double_lxor. reflexivity.
Qed.
Lemma clmul_lxor_r x a b : clmul x (N.lxor a b) = N.lxor (clmul x a) (clmul x b).
Proof.
  induction x as [|x IH|x IH] using N.binary_ind; [reflexivity| |].
  - rewrite !clmul_double_l, IH, double_lxor. reflexivity.
  - rewrite !clmul_succ_double_l, IH, double_lxor. apply lxor_swap.
Qed.
Lemma succ_double_lxor y : N.succ_double y = N.lxor 1 (N.double y).
Proof. destruct y; reflexivity. Qed.
Lemma clmul_1_r x : clmul x 1 = x.
Proof.
  induction x as [|x IH|x IH] using N.binary_ind; [reflexivity| |].
  - rewrite clmul_double_l, IH. reflexivity.
  - rewrite clmul_succ_double_l, IH, succ_double_lxor. reflexivity.
Qed.
Lemma clmul_comm x y : clmul x y = clmul y x.
Proof.
  revert y. induction x as [|x IH|x IH] using N.binary_ind; intros y.
  - rewrite clmul_0_r. reflexivity.
  - rewrite clmul_double_l, clmul_double_r, IH. reflexivity.
  - rewrite clmul_succ_double_l, succ_double_lxor, clmul_lxor_r, clmul_double_r, clmul_1_r, IH. reflexivity.
Qed.
Lemma clmul_lxor_l a b y : clmul (N.lxor a b) y = N.lxor (clmul a y) (clmul b y).
Proof. rewrite clmul_comm, clmul_lxor_r, (clmul_comm y a), (clmul_comm y b). reflexivity. Qed.
Lemma clmul_assoc x y z : clmul (clmul x y) z = clmul x (clmul y z).
Proof.
  induction x as [|x IH|x IH] using N.binary_ind; [reflexivity| |].
  - rewrite !clmul_double_l, IH. reflexivity.
  - rewrite !clmul_succ_double_l, clmul_lxor_l, clmul_double_l, IH. reflexivity.
Qed.
Lemma clmul_shiftl_r x y n : clmul x (N.shiftl y n) = N.shiftl (clmul x y) n.
Proof.
  induction n as [|n IH] using N.peano_ind; [rewrite !N.shiftl_0_r; reflexivity|].
  rewrite <- N.add_1_r, <- !N.shiftl_shiftl, <- !double_shiftl, clmul_double_r, IH. reflexivity.
Qed.
Lemma clmul_pow2 y n : clmul (N.shiftl 1 n) y = N.shiftl y n.
Proof. rewrite clmul_comm, clmul_shiftl_r, clmul_1_r. reflexivity. Qed.
Lemma clpow_add x a b : clpow x (a + b) = clmul (clpow x a) (clpow x b).
Proof.
  induction b as [|b IH]; [rewrite Nat.add_0_r; cbn [clpow]; rewrite clmul_1_r; reflexivity|].
  rewrite Nat.add_succ_r. cbn [clpow]. rewrite IH, clmul_assoc. reflexivity.
Qed.

(** ** Degrees.  Bounds by powers of two. *)
Lemma lxor_lt a b n : a < 2 ^ n -> b < 2 ^ n -> N.lxor a b < 2 ^ n.
Proof.
  intros Ha Hb. destruct (N.eq_dec n 0) as [->|Hn].
  { change (2 ^ 0) with 1 in *. assert (a = 0) as -> by lia. assert (b = 0) as -> by lia. cbn. lia. }
  destruct (N.eq_dec (N.lxor a b) 0) as [->|H]; [apply N.neq_0_lt_0, N.pow_nonzero; lia|].
  assert (X : forall c, c < 2 ^ n -> N.log2 c < n).
  { intros c Hc. destruct (N.eq_dec c 0) as [->|]; [cbn; lia|]. apply N.log2_lt_pow2; lia. }
  apply N.log2_lt_pow2; [lia|]. eapply N.le_lt_trans; [apply N.log2_lxor|].
  apply N.max_lub_lt; apply X; assumption.
Qed.
Lemma log2_lxor_dominant a b : b < 2 ^ N.log2 a -> a <> 0 -> N.log2 (N.lxor a b) = N.log2 a /\ N.lxor a b <> 0.
Proof.
  intros Hb Ha.
  assert (T : N.testbit (N.lxor a b) (N.log2 a) = true).
  { rewrite N.lxor_spec, N.bit_log2 by exact Ha.
    replace (N.testbit b (N.log2 a)) with false; [reflexivity|]. symmetry.
    destruct (N.eq_dec b 0) as [->|Hb0]; [apply N.bits_0|]. apply N.bits_above_log2. apply N.log2_lt_pow2; lia. }
  assert (Nz : N.lxor a b <> 0) by (intros E; rewrite E, N.bits_0 in T; discriminate).
  split; [|exact Nz]. apply N.le_antisymm.
  - eapply N.le_trans; [apply N.log2_lxor|]. apply N.max_lub; [lia|].
    destruct (N.eq_dec b 0) as [->|Hb0]; [cbn; lia|]. apply N.lt_le_incl. apply N.log2_lt_pow2; lia.
  - apply N.le_ngt. intros L. rewrite N.bits_above_log2 in T by exact L. discriminate.
Qed.
Lemma clmul_log2 x y : x <> 0 -> y <> 0 -> clmul x y <> 0 /\ N.log2 (clmul x y) = N.log2 x + N.log2 y.
Proof.
  intros Hx Hy. induction x as [|x IH|x IH] using N.binary_ind; [contradiction| |].
  - assert (x <> 0) as Hx0 by (intros ->; apply Hx; reflexivity). specialize (IH Hx0). destruct IH as [N1 L1].
    rewrite clmul_double_l. split; [destruct (clmul x y); [contradiction|discriminate]|].
    rewrite !N.double_spec, !N.log2_double by lia. lia.
  - rewrite clmul_succ_double_l. destruct (N.eq_dec x 0) as [->|Hx0].
    + rewrite clmul_0_l. change (N.double 0) with 0. rewrite N.lxor_0_r. split; [exact Hy|]. reflexivity.
    + specialize (IH Hx0). destruct IH as [N1 L1].
      assert (D : N.log2 (N.double (clmul x y)) = N.succ (N.log2 x + N.log2 y)) by (rewrite N.double_spec, N.log2_double, L1 by lia; reflexivity).
      assert (N.double (clmul x y) <> 0) by (destruct (clmul x y); [contradiction|discriminate]).
      rewrite N.lxor_comm. destruct (log2_lxor_dominant (N.double (clmul x y)) y) as [A B]; [|assumption|].
      * rewrite D. eapply N.lt_le_trans; [apply N.log2_spec; lia|]. apply N.pow_le_mono_r; lia.
      * split; [exact B|]. rewrite A, D, N.succ_double_spec, N.log2_succ_double by lia. lia.
Qed.
Lemma clmul_zero x y : clmul x y = 0 -> x = 0 \/ y = 0.
Proof.
  intros E. destruct (N.eq_dec x 0); [auto|]. destruct (N.eq_dec y 0); [auto|].
  destruct (clmul_log2 x y) as [H _]; auto. contradiction.
Qed.

(** ** Congruence *)
Section Cong.
  Variable P : N.
  Lemma cong_refl a : cong P a a. Proof. exists 0. rewrite N.lxor_nilpotent. reflexivity. Qed.
  Lemma cong_sym a b : cong P a b -> cong P b a.
  Proof. intros [q E]. exists q. rewrite N.lxor_comm. exact E. Qed.
  Lemma cong_trans a b c : cong P a b -> cong P b c -> cong P a c.
  Proof.
    intros [q E] [r F]. exists (N.lxor q r). rewrite clmul_lxor_l, <- E, <- F.
    rewrite N.lxor_assoc. rewrite <- (N.lxor_assoc b b c), N.lxor_nilpotent, N.lxor_0_l. reflexivity.
  Qed.
  Lemma cong_lxor a b c d : cong P a b -> cong P c d -> cong P (N.lxor a c) (N.lxor b d).
  Proof. intros [q E] [r F]. exists (N.lxor q r). rewrite clmul_lxor_l, <- E, <- F. apply lxor_swap. Qed.
  Lemma cong_clmul_l a b c : cong P a b -> cong P (clmul c a) (clmul c b).
  Proof. intros [q E]. exists (clmul c q). rewrite <- clmul_lxor_r, E, clmul_assoc. reflexivity. Qed.
  Lemma cong_clmul a b c d : cong P a b -> cong P c d -> cong P (clmul a c) (clmul b d).
  Proof.
    intros H K. eapply cong_trans; [apply cong_clmul_l, K|]. rewrite (clmul_comm a d), (clmul_comm b d). apply cong_clmul_l, H.
  Qed.
  Lemma cong_poly a : cong P (N.lxor a P) a.
  Proof. exists 1. rewrite clmul_1_l, N.lxor_comm, <- N.lxor_assoc, N.lxor_nilpotent, N.lxor_0_l. reflexivity. Qed.
  Lemma cong_pow a b k : cong P a b -> cong P (clpow a k) (clpow b k).
  Proof. intros H. induction k as [|k IH]; [apply cong_refl|]. apply cong_clmul; assumption. Qed.
  (** Small residues are unique. *)
  Lemma cong_small a b d : 2 ^ d <= P -> a < 2 ^ d -> b < 2 ^ d -> cong P a b -> a = b.
  Proof.
    intros HP Ha Hb [q E]. assert (L : N.lxor a b < 2 ^ d) by (apply lxor_lt; assumption).
    destruct (N.eq_dec q 0) as [->|Hq]; [apply N.lxor_eq; exact E|]. exfalso.
    assert (P <> 0) as HP0. { intros ->. assert (2 ^ d <> 0) by (apply N.pow_nonzero; lia). lia. }
    destruct (clmul_log2 q P Hq HP0) as [Nz Lg]. rewrite <- E in Nz, Lg.
    assert (N.log2 (N.lxor a b) < d) by (apply N.log2_lt_pow2; lia).
    assert (d <= N.log2 P) by (apply N.log2_le_pow2; lia). lia.
  Qed.
End Cong.

(** ** mul is the product of residues *)
Section Mul.
  Variable P : N.
  Hypothesis HP : 256 <= P < 512.
  Lemma step_ok y : y < 256 ->
    let y' := N.shiftl y 1 in let y2 := if N.testbit y' 8 then N.lxor y' P else y' in
    y2 < 256 /\ cong P y2 (N.double y).
  Proof.
    intros Hy. cbv zeta. rewrite <- double_shiftl.
    assert (D : N.double y < 2 ^ 9) by (change (2 ^ 9) with 512; rewrite N.double_spec; lia).
    destruct (N.testbit (N.double y) 8) eqn:T.
    - split; [|apply cong_poly].
      assert (X : N.lxor (N.double y) P < 2 ^ 9) by (apply lxor_lt; [exact D|change (2 ^ 9) with 512; lia]).
      assert (B : N.testbit (N.lxor (N.double y) P) 8 = false).
      { rewrite N.lxor_spec, T. replace (N.testbit P 8) with true; [reflexivity|]. symmetry.
        assert (N.log2 P = 8) as <- by (apply N.log2_unique; [lia|change (2 ^ 8) with 256; change (2 ^ N.succ 8) with 512; lia]).
        apply N.bit_log2. lia. }
      destruct (N.eq_dec (N.lxor (N.double y) P) 0) as [->|Nz]; [lia|].
      change 256 with (2 ^ 8). apply N.log2_lt_pow2; [lia|].
      assert (N.log2 (N.lxor (N.double y) P) < 9) by (apply N.log2_lt_pow2; lia).
      assert (N.log2 (N.lxor (N.double y) P) <> 8); [|lia].
      intros E. rewrite <- E, N.bit_log2 in B by exact Nz. discriminate.
    - split; [|apply cong_refl].
      destruct (N.eq_dec (N.double y) 0) as [->|Nz]; [lia|].
      change 256 with (2 ^ 8). apply N.log2_lt_pow2; [lia|].
      assert (N.log2 (N.double y) < 9) by (apply N.log2_lt_pow2; lia).
      assert (N.log2 (N.double y) <> 8); [|lia].
      intros E. rewrite <- E, N.bit_log2 in T by exact Nz. discriminate.
  Qed.
  Lemma mul_loop_ok x : forall y z, y < 256 -> z < 256 ->
    mul_loop x y z P < 256 /\ cong P (mul_loop x y z P) (N.lxor z (clmul (Npos x) y)).
  Proof.
    induction x as [x IH|x IH|]; intros y z Hy Hz; cbn [mul_loop].
    - destruct (step_ok y Hy) as [S1 S2]. cbv zeta in S1, S2. set (y2 := if N.testbit _ 8 then _ else _) in *.
      assert (Hzy : N.lxor z y < 256) by (change 256 with (2 ^ 8); apply lxor_lt; assumption).
      destruct (IH y2 (N.lxor z y) S1 Hzy) as [A B]. split; [exact A|].
      eapply cong_trans; [exact B|]. change (N.pos x~1) with (N.succ_double (N.pos x)). rewrite clmul_succ_double_l, <- N.lxor_assoc.
      apply cong_lxor; [apply cong_refl|]. rewrite <- clmul_double_r. apply cong_clmul_l. exact S2.
    - destruct (step_ok y Hy) as [S1 S2]. cbv zeta in S1, S2. set (y2 := if N.testbit _ 8 then _ else _) in *.
      destruct (IH y2 z S1 Hz) as [A B]. split; [exact A|].
      eapply cong_trans; [exact B|]. change (N.pos x~0) with (N.double (N.pos x)). rewrite clmul_double_l.
      apply cong_lxor; [apply cong_refl|]. rewrite <- clmul_double_r. apply cong_clmul_l. exact S2.
    - split; [change 256 with (2 ^ 8); apply lxor_lt; assumption|]. apply cong_refl.
  Qed.
  Lemma mul_ok x y : y < 256 -> mul x y P < 256 /\ cong P (mul x y P) (clmul x y).
  Proof.
    intros Hy. destruct x as [|p]; cbn [mul]; [split; [lia|apply cong_refl]|].
    destruct (mul_loop_ok p y 0 Hy ltac:(lia)) as [A B]. split; [exact A|]. rewrite N.lxor_0_l in B. exact B.
  Qed.
  Lemma small_unique a b : a < 256 -> b < 256 -> cong P a b -> a = b.
  Proof. intros Ha Hb. apply (cong_small P a b 8); [change (2 ^ 8) with 256; lia|exact Ha|exact Hb]. Qed.

  Lemma mul_comm x y : x < 256 -> y < 256 -> mul x y P = mul y x P.
  Proof.
    intros Hx Hy. destruct (mul_ok x y Hy) as [A1 B1]. destruct (mul_ok y x Hx) as [A2 B2].
    apply small_unique; auto. eapply cong_trans; [exact B1|]. rewrite clmul_comm. apply cong_sym, B2.
  Qed.
  Lemma mul_assoc x y z : x < 256 -> y < 256 -> z < 256 -> mul (mul x y P) z P = mul x (mul y z P) P.
  Proof.
    intros Hx Hy Hz. destruct (mul_ok x y Hy) as [A1 B1]. destruct (mul_ok y z Hz) as [A2 B2].
    destruct (mul_ok (mul x y P) z Hz) as [A3 B3]. destruct (mul_ok x (mul y z P) A2) as [A4 B4].
    apply small_unique; auto. eapply cong_trans; [exact B3|]. eapply cong_trans; [apply cong_clmul; [exact B1|apply cong_refl]|].
    rewrite clmul_assoc. apply cong_sym. eapply cong_trans; [exact B4|]. apply cong_clmul_l, B2.
  Qed.
  Lemma mul_lxor_r x y z : y < 256 -> z < 256 -> mul x (N.lxor y z) P = N.lxor (mul x y P) (mul x z P).
  Proof.
    intros Hy Hz. assert (Hyz : N.lxor y z < 256) by (change 256 with (2 ^ 8); apply lxor_lt; assumption).
    destruct (mul_ok x y Hy) as [A1 B1]. destruct (mul_ok x z Hz) as [A2 B2]. destruct (mul_ok x (N.lxor y z) Hyz) as [A3 B3].
    apply small_unique; auto. { change 256 with (2 ^ 8); apply lxor_lt; assumption. }
    eapply cong_trans; [exact B3|]. rewrite clmul_lxor_r. apply cong_sym, cong_lxor; assumption.
  Qed.
  Lemma mul_1_l y : y < 256 -> mul 1 y P = y.
  Proof. intros H. reflexivity. Qed.
  Lemma mul_0_l y : mul 0 y P = 0. Proof. reflexivity. Qed.
End Mul.

(** ** polyDiv and reducible *)
Lemma nbit_spec q : q <> 0 -> N.of_nat (nbit q) = N.log2 q + 1.
Proof.
  intros H. unfold nbit. destruct q as [|p]; [contradiction|]. clear H. cbn [N.size_nat].
  assert (E : N.of_nat (Pos.size_nat p) = Npos (Pos.size p)).
  { induction p as [p IH|p IH|]; cbn [Pos.size_nat Pos.size]; try reflexivity; rewrite Nat2N.inj_succ, IH; cbn; rewrite Pos.add_1_r || idtac; reflexivity. }
  rewrite E. change (N.pos (Pos.size p)) with (N.size (N.pos p)). rewrite N.size_log2 by discriminate. lia.
Qed.
Lemma pd_ok q nq : q <> 0 -> N.of_nat nq = N.log2 q + 1 -> forall steps p,
  p < 2 ^ N.of_nat (nq + steps - 1) ->
  cong q (pd steps p q nq) p /\ pd steps p q nq < 2 ^ N.log2 q.
Proof.
  intros Hq Hn. induction steps as [|m IH]; intros p Hp; cbn [pd].
  - split; [apply cong_refl|]. replace (N.of_nat (nq + 0 - 1)) with (N.log2 q) in Hp by lia. exact Hp.
  - replace (nq + S m - 1)%nat with (nq + m)%nat in Hp by lia.
    set (t := N.of_nat (nq + m - 1)).
    assert (Et : N.of_nat (nq + m) = N.succ t) by (unfold t; lia).
    assert (Eq : N.log2 q + N.of_nat m = t) by (unfold t; lia).
    rewrite Et in Hp.
    assert (B : forall r, r < 2 ^ N.succ t -> N.testbit r t = false -> r < 2 ^ t).
    { intros r Hr Tr. destruct (N.eq_dec r 0) as [->|Nz]; [apply N.neq_0_lt_0, N.pow_nonzero; lia|].
      apply N.log2_lt_pow2; [lia|]. assert (N.log2 r < N.succ t) by (apply N.log2_lt_pow2; lia).
      assert (N.log2 r <> t); [|lia]. intros E. rewrite <- E, N.bit_log2 in Tr by exact Nz. discriminate. }
    destruct (N.testbit p t) eqn:T.
    + assert (Sh : N.shiftl q (N.of_nat m) <> 0) by (rewrite N.shiftl_eq_0_iff; exact Hq).
      assert (Ls : N.log2 (N.shiftl q (N.of_nat m)) = t) by (rewrite N.log2_shiftl by exact Hq; lia).
      destruct (IH (N.lxor p (N.shiftl q (N.of_nat m)))) as [C1 C2].
      * apply B.
        -- apply lxor_lt; [exact Hp|]. apply N.log2_lt_pow2; lia.
        -- rewrite N.lxor_spec, T. rewrite <- Ls at 1. rewrite N.bit_log2 by exact Sh. reflexivity.
      * split; [|exact C2]. eapply cong_trans; [exact C1|].
        exists (N.shiftl 1 (N.of_nat m)). rewrite clmul_pow2.
        rewrite N.lxor_comm, <- N.lxor_assoc, N.lxor_nilpotent, N.lxor_0_l. reflexivity.
    + apply IH. apply B; assumption.
Qed.
Lemma polyDiv_ok p q : q <> 0 -> cong q (polyDiv p q) p /\ polyDiv p q < 2 ^ N.log2 q.
Proof.
  intros Hq. unfold polyDiv. pose proof (nbit_spec q Hq) as Hn.
  destruct (le_lt_dec (nbit q) (nbit p)) as [L|L].
  - apply pd_ok; [exact Hq|exact Hn|]. replace (nbit q + (S (nbit p) - nbit q) - 1)%nat with (nbit p) by lia.
    destruct (N.eq_dec p 0) as [->|Hp]; [apply N.neq_0_lt_0, N.pow_nonzero; lia|].
    rewrite nbit_spec by exact Hp. apply N.log2_lt_pow2; lia.
  - replace (S (nbit p) - nbit q)%nat with 0%nat by lia. cbn [pd]. split; [apply cong_refl|].
    destruct (N.eq_dec p 0) as [->|Hp]; [apply N.neq_0_lt_0, N.pow_nonzero; lia|].
    pose proof (nbit_spec p Hp). apply N.log2_lt_pow2; lia.
Qed.
Lemma polyDiv_zero p q : q <> 0 -> polyDiv p q = 0 <-> exists k, p = clmul k q.
Proof.
  intros Hq. destruct (polyDiv_ok p q Hq) as [[k C] L]. split.
  - intros E. rewrite E, N.lxor_0_l in C. exists k. exact C.
  - intros [k' ->]. apply (cong_small q _ _ (N.log2 q)).
    + apply N.log2_spec. lia.
    + exact L.
    + apply N.neq_0_lt_0, N.pow_nonzero. lia.
    + exists (N.lxor k k'). rewrite N.lxor_0_r, clmul_lxor_l, <- C. rewrite N.lxor_assoc, N.lxor_nilpotent, N.lxor_0_r. reflexivity.
Qed.

Lemma reducible_ok P : 256 <= P < 512 -> reducible P = false <-> irreducible8 P.
Proof.
  intros HP. assert (LP : N.log2 P = 8) by (apply N.log2_unique; [lia|change (2 ^ 8) with 256; change (2 ^ N.succ 8) with 512; lia]).
  assert (Hb : reducible P = existsb (fun q => polyDiv P (N.of_nat q) =? 0) (seq 2 30)).
  { unfold reducible. assert (nbit P = 9%nat) as ->; [|reflexivity]. pose proof (nbit_spec P ltac:(lia)). lia. }
  rewrite Hb. split.
  - intros R. split; [exact HP|]. intros a b Ha Hb' E.
    assert (S : forall u v, 2 <= u -> 2 <= v -> clmul u v = P -> N.log2 v < 5 -> False).
    { intros u v Hu Hv Euv Lv.
      assert (Hv32 : v < 32) by (change 32 with (2 ^ 5); apply N.log2_lt_pow2; lia).
      assert (D : polyDiv P v = 0) by (apply polyDiv_zero; [lia|exists u; auto]).
      assert (X : existsb (fun q => polyDiv P (N.of_nat q) =? 0) (seq 2 30) = true).
      { apply existsb_exists. exists (N.to_nat v). split; [apply in_seq; lia|]. rewrite N2Nat.id, D. reflexivity. }
      rewrite X in R. discriminate. }
    destruct (clmul_log2 a b ltac:(lia) ltac:(lia)) as [_ L]. rewrite E, LP in L.
    destruct (N.lt_ge_cases (N.log2 b) 5) as [H|H]; [apply (S a b); auto|].
    apply (S b a); auto; [rewrite clmul_comm; exact E|lia].
  - intros [_ I]. destruct (existsb _ _) eqn:X; [|reflexivity]. exfalso. apply existsb_exists in X.
    destruct X as [q [Hq D]]. apply in_seq in Hq. apply N.eqb_eq in D. apply polyDiv_zero in D; [|lia].
    destruct D as [k E]. apply (I k (N.of_nat q)); [|lia|auto].
    destruct (N.eq_dec k 0) as [->|Hk]; [cbn in E; lia|]. destruct (N.eq_dec k 1) as [->|]; [rewrite clmul_1_l in E; lia|lia].
Qed.
