(** * Bits.Write and the three encodings against the bit-string reading of the standard. *)
From Coq Require Import String.
From Coq Require Import NArith ZArith Arith List Bool Lia.
From Verif Require Import Utf8 Gf256Model Gf256Spec QrVtab QrModel QrSpec.
Import ListNotations.
Open Scope nat_scope.

(** ** bits_of *)
Lemma bits_of_length k v : length (bits_of k v) = k.
Proof. induction k as [|k IH]; cbn; auto. Qed.
Lemma bits_of_app n s v : bits_of (n + s) v = bits_of n (N.shiftr v (N.of_nat s)) ++ bits_of s v.
Proof.
  induction n as [|n IH]; cbn [bits_of Nat.add app]; [reflexivity|]. rewrite IH. f_equal.
  rewrite N.shiftr_spec by lia. f_equal. lia.
Qed.
Lemma bits_of_mod k j v : k <= j -> bits_of k (v mod 2 ^ N.of_nat j)%N = bits_of k v.
Proof.
  induction k as [|k IH]; intros H; cbn [bits_of]; [reflexivity|]. rewrite IH by lia. f_equal.
  apply N.mod_pow2_bits_low. lia.
Qed.
Lemma bits_of_small p n t : (t < 2 ^ N.of_nat n)%N -> bits_of (p + n) t = repeat false p ++ bits_of n t.
Proof.
  intros H. rewrite bits_of_app. f_equal. rewrite N.shiftr_div_pow2, N.div_small by exact H.
  induction p as [|p IH]; cbn; [reflexivity|]. rewrite IH. reflexivity.
Qed.
Lemma bits_of_0 k : bits_of k 0 = repeat false k.
Proof. induction k as [|k IH]; cbn; [reflexivity|]. rewrite IH. reflexivity. Qed.
Lemma bits_of_shiftl j s t : bits_of (j + s) (N.shiftl t (N.of_nat s)) = bits_of j t ++ repeat false s.
Proof.
  rewrite bits_of_app. f_equal.
  - rewrite N.shiftr_shiftl_l, N.sub_diag by lia. rewrite N.shiftl_0_r. reflexivity.
  - rewrite N.shiftl_mul_pow2. replace (bits_of s (t * 2 ^ N.of_nat s)) with (bits_of s (t * 2 ^ N.of_nat s mod 2 ^ N.of_nat s)%N) by (apply bits_of_mod; lia).
    rewrite N.mod_mul by (apply N.pow_nonzero; lia). apply bits_of_0.
Qed.
Fixpoint orl (a b : list bool) : list bool := match a, b with x :: a', y :: b' => (x || y) :: orl a' b' | _, _ => [] end.
Lemma bits_of_lor k a b : bits_of k (N.lor a b) = orl (bits_of k a) (bits_of k b).
Proof. induction k as [|k IH]; cbn; [reflexivity|]. rewrite IH, N.lor_spec. reflexivity. Qed.
Lemma orl_app a b c d : length a = length c -> orl (a ++ b) (c ++ d) = orl a c ++ orl b d.
Proof. revert c. induction a as [|x a IH]; intros [|y c] H; cbn in *; try lia; [reflexivity|]. rewrite IH by lia. reflexivity. Qed.
Lemma orl_false_r a n : length a = n -> orl a (repeat false n) = a.
Proof. revert n. induction a as [|x a IH]; intros [|n] H; cbn in *; try lia; [reflexivity|]. rewrite orb_false_r, IH by lia. reflexivity. Qed.
Lemma orl_false_l a n : length a = n -> orl (repeat false n) a = a.
Proof. revert n. induction a as [|x a IH]; intros [|n] H; cbn in *; try lia; [reflexivity|]. rewrite IH by lia. reflexivity. Qed.
Lemma bits_val_app a b : bits_val (a ++ b) = (bits_val a * 2 ^ N.of_nat (length b) + bits_val b)%N.
Proof.
  assert (G : forall l acc, fold_left (fun (a : N) (b : bool) => (2 * a + (if b then 1 else 0))%N) l acc = (acc * 2 ^ N.of_nat (length l) + bits_val l)%N).
  { unfold bits_val. induction l as [|x l IH]; intros acc; cbn [fold_left length]; [lia|]. rewrite IH, (IH (2 * 0 + _)%N).
    rewrite Nat2N.inj_succ, N.pow_succ_r'. lia. }
  unfold bits_val at 1. rewrite fold_left_app. apply G.
Qed.
Lemma bits_val_of k v : bits_val (bits_of k v) = (v mod 2 ^ N.of_nat k)%N.
Proof.
  induction k as [|k IH]; [rewrite N.mod_1_r; reflexivity|]. cbn [bits_of].
  change (N.testbit v (N.of_nat k) :: bits_of k v) with ([N.testbit v (N.of_nat k)] ++ bits_of k v).
  rewrite bits_val_app, bits_of_length, IH. rewrite Nat2N.inj_succ, N.pow_succ_r', (N.mul_comm 2), N.mod_mul_r by (try apply N.pow_nonzero; lia).
  replace (bits_val [N.testbit v (N.of_nat k)]) with ((v / 2 ^ N.of_nat k) mod 2)%N; [lia|].
  rewrite <- N.shiftr_div_pow2. rewrite <- N.bit0_mod. rewrite N.shiftr_spec by lia. rewrite N.add_0_l. destruct (N.testbit v (N.of_nat k)); reflexivity.
Qed.
Lemma bits_val_lt l : (bits_val l < 2 ^ N.of_nat (length l))%N.
Proof.
  induction l as [|x l IH] using rev_ind; [cbn; lia|]. rewrite bits_val_app, app_length. cbn [length].
  change (2 ^ N.of_nat 1)%N with 2%N. rewrite Nat.add_1_r. rewrite Nat2N.inj_succ, N.pow_succ_r'.
  change (bits_val [x]) with (if x then 1 else 0)%N. destruct x; cbv iota; lia.
Qed.
Lemma bits_of_val l : bits_of (length l) (bits_val l) = l.
Proof.
  induction l as [|x l IH]; [reflexivity|]. cbn [length bits_of]. rewrite (bits_val_app [x] l : bits_val (x :: l) = _).
  assert (B := bits_val_lt l). f_equal.
  - replace (bits_val [x]) with (N.b2n x) by (destruct x; reflexivity). rewrite N.testbit_eqb.
    rewrite N.div_add_l by (apply N.pow_nonzero; lia). rewrite N.div_small by exact B. destruct x; reflexivity.
  - transitivity (bits_of (length l) (bits_val l)); [|exact IH]. rewrite <- (bits_of_mod (length l) (length l)) by lia.
    rewrite N.add_comm, N.mod_add by (apply N.pow_nonzero; lia). rewrite N.mod_small by exact B. reflexivity.
Qed.
Lemma take_bits_app k v rest : (v < 2 ^ N.of_nat k)%N -> take_bits k (bits_of k v ++ rest) = Some (v, rest).
Proof.
  intros H. unfold take_bits. rewrite app_length, bits_of_length. destruct (Nat.ltb_spec (k + length rest) k); [lia|].
  rewrite firstn_app, skipn_app, bits_of_length, Nat.sub_diag. rewrite firstn_all2, skipn_all2 by (rewrite bits_of_length; lia).
  cbn [firstn skipn app]. rewrite app_nil_r, bits_val_of, N.mod_small by exact H. reflexivity.
Qed.

(** ** Write *)
Notation flat bs := (flat_map (bits_of 8) bs).
Definition repr (b : Bits) (l : list bool) : Prop :=
  length l = nbit b /\ flat (bb b) = l ++ repeat false (neg7 (nbit b)) /\ Forall byteb (bb b).
Lemma repr0 : repr bits0 [].
Proof. split; [reflexivity|]. split; [reflexivity|constructor]. Qed.

Lemma neg7_add a n : n <= neg7 a -> neg7 (a + n) = neg7 a - n.
Proof.
  unfold neg7. intros H. pose proof (Nat.mod_upper_bound a 8 ltac:(lia)) as B.
  rewrite <- (Nat.add_mod_idemp_l a n 8) by lia. remember (a mod 8) as r. clear Heqr.
  do 8 (destruct r as [|r]; [do 8 (destruct n as [|n]; [try reflexivity; cbn in H; lia|]); cbn in H; lia|]). lia.
Qed.
Lemma neg7_lt a : neg7 a < 8. Proof. unfold neg7. apply Nat.mod_upper_bound. lia. Qed.
Lemma neg7_zero a : a mod 8 = 0 -> neg7 a = 0. Proof. unfold neg7. intros ->. reflexivity. Qed.
Lemma neg7_pos a : a mod 8 <> 0 -> 1 <= neg7 a /\ (a + neg7 a) mod 8 = 0.
Proof.
  unfold neg7. intros H. pose proof (Nat.mod_upper_bound a 8 ltac:(lia)) as B.
  rewrite <- (Nat.add_mod_idemp_l a _ 8) by lia. remember (a mod 8) as r. clear Heqr.
  do 8 (destruct r as [|r]; [cbn; try (split; [lia|reflexivity]); try lia|]). lia.
Qed.

Lemma or_last_spec bytes l m n top : flat bytes = l ++ repeat false m -> 1 <= m <= 8 -> n <= m -> (top < 2 ^ N.of_nat n)%N ->
  Forall byteb bytes ->
  flat (or_last bytes (N.shiftl top (N.of_nat (m - n)) mod 256)%N) = l ++ bits_of n top ++ repeat false (m - n)
  /\ Forall byteb (or_last bytes (N.shiftl top (N.of_nat (m - n)) mod 256)%N).
Proof.
  intros E Hm Hn Ht B.
  assert (Ne : bytes <> []).
  { intros ->. apply (f_equal (@length bool)) in E. rewrite app_length, repeat_length in E. cbn in E. lia. }
  rewrite (app_removelast_last 0%N Ne) in E, B. unfold or_last. set (init := removelast bytes) in *. set (x := last bytes 0%N) in *.
  apply Forall_app in B. destruct B as [B1 B2]. inversion B2; subst. split.
  - rewrite flat_map_app in *. cbn [flat_map] in *. rewrite app_nil_r in *.
    assert (L : length l = length (flat init) + (8 - m)).
    { apply (f_equal (@length bool)) in E. rewrite !app_length, repeat_length, bits_of_length in E. lia. }
    set (pre := skipn (length (flat init)) l).
    assert (El : l = flat init ++ pre).
    { rewrite <- (firstn_skipn (length (flat init)) l). f_equal. apply (f_equal (firstn (length (flat init)))) in E.
      rewrite !firstn_app in E. rewrite Nat.sub_diag in E. rewrite firstn_all in E. cbn [firstn] in E. rewrite app_nil_r in E.
      replace (length (flat init) - length l) with 0 in E by lia. cbn [firstn] in E. rewrite app_nil_r in E. auto. }
    assert (Lp : length pre = 8 - m) by (unfold pre; rewrite skipn_length; lia).
    rewrite El in E. rewrite <- app_assoc in E. apply app_inv_head in E.
    rewrite El, <- app_assoc. f_equal. rewrite bits_of_lor, E.
    change 256%N with (2 ^ N.of_nat 8)%N. rewrite bits_of_mod by lia.
    replace 8 with ((8 - (m - n)) + (m - n)) at 1 by lia. rewrite bits_of_shiftl.
    replace (8 - (m - n)) with ((8 - m) + n) by lia. rewrite bits_of_small by exact Ht. rewrite <- app_assoc.
    rewrite orl_app by (rewrite repeat_length; exact Lp). rewrite orl_false_r by exact Lp. f_equal.
    apply orl_false_l. rewrite app_length, bits_of_length, repeat_length. lia.
  - apply Forall_app. split; [exact B1|]. constructor; [|constructor]. unfold byteb in *.
    assert (D : (N.shiftl top (N.of_nat (m - n)) mod 256 < 256)%N) by (apply N.mod_lt; discriminate).
    remember (N.shiftl top (N.of_nat (m - n)) mod 256)%N as y. clear Heqy.
    change 256%N with (2 ^ 8)%N in *. destruct (N.eq_dec (N.lor x y) 0) as [->|Nz]; [lia|].
    apply N.log2_lt_pow2; [lia|]. rewrite N.log2_lor. apply N.max_lub_lt.
    + destruct (N.eq_dec x 0) as [->|]; [cbn; lia|apply N.log2_lt_pow2; [lia|assumption]].
    + destruct (N.eq_dec y 0) as [->|]; [cbn; lia|apply N.log2_lt_pow2; [lia|assumption]].
Qed.

Lemma write_loop_repr fuel : forall b l v k, k <= fuel -> repr b l -> (v < 2 ^ N.of_nat k)%N -> repr (write_loop fuel b v k) (l ++ bits_of k v).
Proof.
  induction fuel as [|f IH]; intros b l v k Hk R Hv.
  - replace k with 0 by lia. cbn. rewrite app_nil_r. exact R.
  - cbn [write_loop]. destruct (Nat.eqb_spec k 0) as [->|Nk]; [cbn; rewrite app_nil_r; exact R|].
    destruct R as [L [F B]].
    set (fresh := nbit b mod 8 =? 0). set (bytes := if fresh then bb b ++ [0%N] else bb b).
    set (m := if fresh then 8 else neg7 (nbit b)). set (n := if fresh then Nat.min k 8 else Nat.min (Nat.min k 8) (neg7 (nbit b))).
    assert (Hm : 1 <= m <= 8).
    { unfold m, fresh. destruct (Nat.eqb_spec (nbit b mod 8) 0) as [E|E]; [lia|]. pose proof (neg7_pos _ E). pose proof (neg7_lt (nbit b)). lia. }
    assert (Hn : 1 <= n <= m /\ n <= k) by (unfold n, m in *; destruct fresh; lia).
    assert (Fb : flat bytes = l ++ repeat false m).
    { unfold bytes, m, fresh. destruct (Nat.eqb_spec (nbit b mod 8) 0) as [E|E]; [|exact F].
      rewrite flat_map_app, F, neg7_zero by exact E. cbn [repeat]. rewrite app_nil_r. reflexivity. }
    assert (Bb : Forall byteb bytes).
    { unfold bytes. destruct fresh; [|exact B]. apply Forall_app. split; [exact B|]. constructor; [unfold byteb; lia|constructor]. }
    assert (Ns : neg7 (nbit b + n) = m - n).
    { unfold m, n, fresh in *. destruct (Nat.eqb_spec (nbit b mod 8) 0) as [E|E].
      - unfold neg7. rewrite <- (Nat.add_mod_idemp_l (nbit b)), E by lia. rewrite Nat.add_0_l. destruct (Nat.eq_dec (Nat.min k 8) 8) as [->|N8]; [reflexivity|].
        rewrite (Nat.mod_small (Nat.min k 8)) by lia. apply Nat.mod_small. lia.
      - apply neg7_add. lia. }
    set (top := N.shiftr v (N.of_nat (k - n))).
    assert (Ht : (top < 2 ^ N.of_nat n)%N).
    { unfold top. rewrite N.shiftr_div_pow2. apply N.div_lt_upper_bound; [apply N.pow_nonzero; lia|]. rewrite <- N.pow_add_r.
      replace (N.of_nat (k - n) + N.of_nat n)%N with (N.of_nat k) by lia. exact Hv. }
    assert (Hv' : (v - N.shiftl top (N.of_nat (k - n)) = v mod 2 ^ N.of_nat (k - n))%N).
    { unfold top. rewrite N.shiftl_mul_pow2, N.shiftr_div_pow2. set (p := (2 ^ N.of_nat (k - n))%N).
      assert (D := N.div_mod v p ltac:(apply N.pow_nonzero; lia)). rewrite (N.mul_comm (v / p)). generalize dependent (v mod p)%N. generalize dependent (p * (v / p))%N. clear. intros; lia. }
    destruct (or_last_spec bytes l m n top Fb Hm ltac:(lia) Ht Bb) as [F2 B2].
    replace (l ++ bits_of k v) with ((l ++ bits_of n top) ++ bits_of (k - n) (v mod 2 ^ N.of_nat (k - n))%N).
    2:{ rewrite bits_of_mod by lia. rewrite <- app_assoc. f_equal. unfold top. rewrite <- bits_of_app. f_equal. lia. }
    rewrite Hv'. apply IH; [lia| |apply N.mod_lt; apply N.pow_nonzero; lia].
    rewrite Ns. split; [cbn; rewrite app_length, bits_of_length; lia|]. split; [|exact B2].
    cbn [bb nbit]. rewrite F2, Ns, <- app_assoc. reflexivity.
Qed.
Lemma Write_repr b l v k : repr b l -> (v < 2 ^ N.of_nat k)%N -> repr (Write b v k) (l ++ bits_of k v).
Proof. intros. apply write_loop_repr; auto. Qed.
Lemma write_loop_nbit fuel : forall b v k, k <= fuel -> nbit (write_loop fuel b v k) = nbit b + k.
Proof.
  induction fuel as [|f IH]; intros b v k Hk; cbn [write_loop]; [lia|].
  destruct (Nat.eqb_spec k 0); [lia|]. rewrite IH; cbn [nbit].
  - destruct (Nat.eqb_spec (nbit b mod 8) 0) as [E|E]; [lia|]. pose proof (neg7_pos _ E). lia.
  - destruct (Nat.eqb_spec (nbit b mod 8) 0) as [E|E]; [lia|]. pose proof (neg7_pos _ E). lia.
Qed.
Lemma Write_nbit b v k : nbit (Write b v k) = nbit b + k.
Proof. apply write_loop_nbit. lia. Qed.

(** ** Sizes (C18) *)
Lemma num_groups_nbit : forall n b s, length s <= n -> nbit (num_groups b s) = nbit b + (10 * length s + 2) / 3.
Proof.
  induction n as [|n IH]; intros b s H.
  - destruct s; [|cbn in H; lia]. cbn. lia.
  - destruct s as [|x [|y [|z s]]]; cbn [num_groups length] in *; rewrite ?Write_nbit.
    + cbn. lia.
    + reflexivity.
    + reflexivity.
    + rewrite IH by lia. rewrite Write_nbit. replace (10 * S (S (S (length s))) + 2) with ((10 * length s + 2) + 10 * 3) by lia.
      rewrite Nat.div_add by lia. lia.
Qed.
Lemma alpha_groups_nbit : forall n b s, length s <= n -> nbit (alpha_groups b s) = nbit b + (11 * length s + 1) / 2.
Proof.
  induction n as [|n IH]; intros b s H.
  - destruct s; [|cbn in H; lia]. cbn. lia.
  - destruct s as [|x [|y s]]; cbn [alpha_groups length] in *; rewrite ?Write_nbit.
    + cbn. lia.
    + reflexivity.
    + rewrite IH by lia. rewrite Write_nbit. replace (11 * S (S (length s)) + 1) with ((11 * length s + 1) + 11 * 2) by lia.
      rewrite Nat.div_add by lia. lia.
Qed.
Lemma str_bytes_nbit s : forall b, nbit (str_bytes b s) = nbit b + 8 * length s.
Proof. induction s as [|x s IH]; intros b; cbn [str_bytes length]; [lia|]. rewrite IH, Write_nbit. lia. Qed.
Lemma EncodeE_nbit e b v : nbit (EncodeE e b v) = nbit b + EBits e v.
Proof.
  destruct e as [s|s|s]; cbn [EncodeE EBits].
  - rewrite (num_groups_nbit (length s)), !Write_nbit by lia. lia.
  - rewrite (alpha_groups_nbit (length s)), !Write_nbit by lia. lia.
  - rewrite str_bytes_nbit, !Write_nbit. lia.
Qed.

(** ** Contents (C19) *)
Definition is_digit (c : N) : Prop := (48 <= c <= 57)%N.
Fixpoint num_bits (s : list N) : list bool :=
  match s with
  | x :: y :: z :: s' => bits_of 10 ((x - 48) * 100 + (y - 48) * 10 + (z - 48))%N ++ num_bits s'
  | [x; y] => bits_of 7 ((x - 48) * 10 + (y - 48))%N
  | [x] => bits_of 4 (x - 48)%N
  | [] => []
  end.
Lemma dig_digit c : is_digit c -> dig c = (c - 48)%N /\ (c - 48 < 10)%N.
Proof.
  unfold is_digit, dig. intros H. split; [|lia]. replace (c + 208)%N with ((c - 48) + 1 * 256)%N by lia.
  rewrite N.mod_add by lia. apply N.mod_small. lia.
Qed.
Lemma num_groups_repr : forall n s b l, length s <= n -> Forall is_digit s -> repr b l -> repr (num_groups b s) (l ++ num_bits s).
Proof.
  induction n as [|n IH]; intros s b l Hn F R.
  - destruct s; [|cbn in Hn; lia]. cbn. rewrite app_nil_r. exact R.
  - destruct s as [|x [|y [|z s]]]; cbn [num_groups num_bits length] in *.
    + rewrite app_nil_r. exact R.
    + inversion F; subst. destruct (dig_digit x H1) as [-> D]. apply Write_repr; [exact R|]. change (2 ^ N.of_nat 4)%N with 16%N. lia.
    + inversion F as [|? ? Hx F1]; subst. inversion F1 as [|? ? Hy F2]; subst. destruct (dig_digit x Hx) as [-> D]. destruct (dig_digit y Hy) as [-> D'].
      apply Write_repr; [exact R|]. change (2 ^ N.of_nat 7)%N with 128%N. lia.
    + inversion F as [|? ? Hx F1]; subst. inversion F1 as [|? ? Hy F2]; subst. inversion F2 as [|? ? Hz F3]; subst.
      destruct (dig_digit x Hx) as [-> D]. destruct (dig_digit y Hy) as [-> D']. destruct (dig_digit z Hz) as [-> D2].
      rewrite app_assoc. apply IH; [lia|exact F3|]. apply Write_repr; [exact R|]. change (2 ^ N.of_nat 10)%N with 1024%N. lia.
Qed.
Lemma read_num_ok : forall n s rest, length s <= n -> Forall is_digit s -> read_num (length s) (num_bits s ++ rest) = Some (s, rest).
Proof.
  induction n as [|n IH]; intros s rest Hn F.
  - destruct s; [|cbn in Hn; lia]. reflexivity.
  - destruct s as [|x [|y [|z s]]]; cbn [num_bits length read_num] in *.
    + reflexivity.
    + inversion F as [|? ? Hx _]; subst. unfold is_digit in Hx. rewrite take_bits_app by (change (2 ^ N.of_nat 4)%N with 16%N; lia).
      destruct (N.ltb_spec (x - 48) 10); [|lia]. unfold digit. do 3 f_equal. lia.
    + inversion F as [|? ? Hx F1]; subst. inversion F1 as [|? ? Hy F2]; subst. unfold is_digit in *.
      rewrite take_bits_app by (change (2 ^ N.of_nat 7)%N with 128%N; lia).
      destruct (N.ltb_spec ((x - 48) * 10 + (y - 48)) 100); [|lia]. unfold digit.
      rewrite N.div_add_l, N.div_small by lia. rewrite (N.add_comm ((x - 48) * 10)), N.mod_add, N.mod_small by lia. repeat f_equal; lia.
    + inversion F as [|? ? Hx F1]; subst. inversion F1 as [|? ? Hy F2]; subst. inversion F2 as [|? ? Hz F3]; subst. unfold is_digit in *.
      rewrite <- app_assoc, take_bits_app by (change (2 ^ N.of_nat 10)%N with 1024%N; lia).
      set (a := (x - 48)%N). set (b := (y - 48)%N). set (c := (z - 48)%N).
      assert (Ha : (a < 10)%N) by (unfold a; lia). assert (Hb : (b < 10)%N) by (unfold b; lia). assert (Hc : (c < 10)%N) by (unfold c; lia).
      destruct (N.ltb_spec (a * 100 + b * 10 + c) 1000); [|lia]. rewrite IH by (auto; lia). unfold digit.
      replace ((a * 100 + b * 10 + c) / 100)%N with a by (apply (N.div_unique _ 100 a (b * 10 + c)); lia).
      replace ((a * 100 + b * 10 + c) / 10)%N with (a * 10 + b)%N by (apply (N.div_unique _ 10 (a * 10 + b) c); lia).
      replace ((a * 10 + b) mod 10)%N with b by (apply (N.mod_unique _ 10 a b); lia).
      replace ((a * 100 + b * 10 + c) mod 10)%N with c by (apply (N.mod_unique _ 10 (a * 10 + b) c); lia).
      repeat f_equal; lia.
Qed.

Definition is_alnum (c : N) : Prop := In c alnum.
Definition aval (c : N) : N := aidx c.
Lemma alphabet_alnum : alphabet = alnum. Proof. vm_compute. reflexivity. Qed.
Lemma index_of_spec c l : forall i, In c l -> exists k, index_of c l i = Some (i + k) /\ k < length l /\ nth k l 0%N = c.
Proof.
  induction l as [|x l IH]; intros i H; [destruct H|]. cbn [index_of]. destruct (N.eqb_spec x c) as [->|Ne].
  - exists 0. split; [f_equal; lia|]. cbn. split; [lia|reflexivity].
  - destruct H as [->|H]; [congruence|]. destruct (IH (S i) H) as [k [E [L V]]]. exists (S k). rewrite E.
    split; [f_equal; lia|]. cbn. split; [lia|exact V].
Qed.
Lemma aidx_spec c : is_alnum c -> (aidx c < 45)%N /\ nth (N.to_nat (aidx c)) alnum 0%N = c.
Proof.
  unfold is_alnum, aidx. rewrite alphabet_alnum. intros H. destruct (index_of_spec c alnum 0 H) as [k [-> [L V]]].
  change (length alnum) with 45 in L. cbn [Nat.add]. split; [lia|]. rewrite Nat2N.id. exact V.
Qed.
Fixpoint alpha_bits (s : list N) : list bool :=
  match s with
  | x :: y :: s' => bits_of 11 (aidx x * 45 + aidx y)%N ++ alpha_bits s'
  | [x] => bits_of 6 (aidx x)
  | [] => []
  end.
Lemma alpha_groups_repr : forall n s b l, length s <= n -> Forall is_alnum s -> repr b l -> repr (alpha_groups b s) (l ++ alpha_bits s).
Proof.
  induction n as [|n IH]; intros s b l Hn F R.
  - destruct s; [|cbn in Hn; lia]. cbn. rewrite app_nil_r. exact R.
  - destruct s as [|x [|y s]]; cbn [alpha_groups alpha_bits length] in *.
    + rewrite app_nil_r. exact R.
    + inversion F as [|? ? Hx _]; subst. destruct (aidx_spec x Hx). apply Write_repr; [exact R|]. change (2 ^ N.of_nat 6)%N with 64%N. lia.
    + inversion F as [|? ? Hx F1]; subst. inversion F1 as [|? ? Hy F2]; subst. destruct (aidx_spec x Hx). destruct (aidx_spec y Hy).
      rewrite N.mod_small by (change (2 ^ 64)%N with 18446744073709551616%N; lia).
      rewrite app_assoc. apply IH; [lia|exact F2|]. apply Write_repr; [exact R|]. change (2 ^ N.of_nat 11)%N with 2048%N. lia.
Qed.
Lemma read_alnum_ok : forall n s rest, length s <= n -> Forall is_alnum s -> read_alnum (length s) (alpha_bits s ++ rest) = Some (s, rest).
Proof.
  induction n as [|n IH]; intros s rest Hn F.
  - destruct s; [|cbn in Hn; lia]. reflexivity.
  - destruct s as [|x [|y s]]; cbn [alpha_bits length read_alnum] in *.
    + reflexivity.
    + inversion F as [|? ? Hx _]; subst. destruct (aidx_spec x Hx) as [B E]. rewrite take_bits_app by (change (2 ^ N.of_nat 6)%N with 64%N; lia).
      destruct (N.ltb_spec (aidx x) 45); [|lia]. rewrite E. reflexivity.
    + inversion F as [|? ? Hx F1]; subst. inversion F1 as [|? ? Hy F2]; subst. destruct (aidx_spec x Hx) as [B E]. destruct (aidx_spec y Hy) as [B' E'].
      rewrite <- app_assoc, take_bits_app by (change (2 ^ N.of_nat 11)%N with 2048%N; lia).
      destruct (N.ltb_spec (aidx x * 45 + aidx y) 2025); [|lia]. rewrite IH by (auto; lia).
      rewrite N.div_add_l, N.div_small by lia. rewrite (N.add_comm (aidx x * 45)), N.mod_add, N.mod_small by lia.
      rewrite N.add_0_r, E, E'. reflexivity.
Qed.
Lemma str_bytes_repr s : forall b l, Forall byteb s -> repr b l -> repr (str_bytes b s) (l ++ flat s).
Proof.
  induction s as [|x s IH]; intros b l F R; cbn [str_bytes flat_map]; [rewrite app_nil_r; exact R|].
  inversion F; subst. rewrite app_assoc. apply IH; [assumption|]. apply Write_repr; assumption.
Qed.
Lemma read_bytes_ok s rest : Forall byteb s -> read_bytes (length s) (flat s ++ rest) = Some (s, rest).
Proof.
  induction s as [|x s IH]; intros F; cbn [length read_bytes flat_map]; [reflexivity|]. inversion F; subst.
  rewrite <- app_assoc, take_bits_app by assumption. rewrite IH by assumption. reflexivity.
Qed.

(** ** Check *)
Lemma range_from_all (p : Z -> bool) : (forall b, 128 <= b -> p b = false)%Z -> forall fuel i s, length s <= fuel ->
  forallb p (map snd (range_from fuel i s)) = true <-> forallb p s = true.
Proof.
  intros Hp. induction fuel as [|f IH]; intros i s L.
  - destruct s; [reflexivity|cbn in L; lia].
  - destruct s as [|b0 s1]; [reflexivity|]. cbn [range_from].
    destruct (Z.leb_spec 128 b0) as [H|H].
    + pose proof (decode_high b0 s1 H) as D. destruct (decode (b0 :: s1)) as [r w] eqn:E. destruct D as [D _].
      cbn [map forallb snd]. rewrite (Hp r D), (Hp b0 H). reflexivity.
    + unfold decode. destruct (Z.ltb_spec b0 128); [|lia]. cbn [map forallb snd skipn]. rewrite !andb_true_iff.
      rewrite IH by (cbn in L; lia). reflexivity.
Qed.
Lemma runes_all (p : Z -> bool) s : (forall b, 128 <= b -> p b = false)%Z -> forallb p (runes s) = forallb p s.
Proof.
  intros H. unfold runes, range_str. apply eq_true_iff_eq. apply range_from_all; [exact H|lia].
Qed.
Lemma Check_num s : Check (Num s) = true <-> Forall is_digit s.
Proof.
  cbn [Check]. rewrite runes_all.
  - rewrite forallb_forall, Forall_forall. split.
    + intros H x Hx. specialize (H (Z.of_N x) (in_map _ _ _ Hx)). unfold digit_rune in H. apply andb_true_iff in H. rewrite !Z.leb_le in H. unfold is_digit. lia.
    + intros H x Hx. apply in_map_iff in Hx. destruct Hx as [y [<- Hy]]. specialize (H y Hy). unfold is_digit in H. unfold digit_rune.
      apply andb_true_iff. rewrite !Z.leb_le. lia.
  - intros b Hb. unfold digit_rune. apply andb_false_iff. right. apply Z.leb_gt. lia.
Qed.
Lemma alpha_rune_spec c : alpha_rune (Z.of_N c) = true <-> is_alnum c.
Proof.
  unfold alpha_rune, is_alnum. rewrite alphabet_alnum, existsb_exists. split.
  - intros [x [H E]]. apply Z.eqb_eq in E. apply N2Z.inj in E. subst. exact H.
  - intros H. exists c. split; [exact H|apply Z.eqb_refl].
Qed.
Lemma alpha_rune_high b : (128 <= b)%Z -> alpha_rune b = false.
Proof.
  intros H. destruct (alpha_rune b) eqn:E; [|reflexivity]. unfold alpha_rune in E. apply existsb_exists in E. destruct E as [x [I E]].
  apply Z.eqb_eq in E. exfalso. rewrite alphabet_alnum in I. assert (A : forallb (fun c => (c <? 128)%N) alnum = true) by (vm_compute; reflexivity).
  rewrite forallb_forall in A. specialize (A x I). apply N.ltb_lt in A. lia.
Qed.
Lemma Check_alpha s : Check (Alpha s) = true <-> Forall is_alnum s.
Proof.
  cbn [Check]. rewrite runes_all by apply alpha_rune_high. rewrite forallb_forall, Forall_forall. split.
  - intros H x Hx. apply alpha_rune_spec. apply H. apply in_map. exact Hx.
  - intros H x Hx. apply in_map_iff in Hx. destruct Hx as [y [<- Hy]]. apply alpha_rune_spec. apply H. exact Hy.
Qed.

(** ** One segment *)
Definition text_of (e : Encoding) : list N := match e with Num s | Alpha s | Str s => s end.
Definition seg_bits (e : Encoding) (v : nat) : list bool :=
  match e with
  | Num s => bits_of 4 1 ++ bits_of (numLen (sizeClass v)) (N.of_nat (length s)) ++ num_bits s
  | Alpha s => bits_of 4 2 ++ bits_of (alphaLen (sizeClass v)) (N.of_nat (length s)) ++ alpha_bits s
  | Str s => bits_of 4 4 ++ bits_of (stringLen (sizeClass v)) (N.of_nat (length s)) ++ flat s
  end.
Definition count_len (e : Encoding) (v : nat) : nat :=
  match e with Num _ => numLen (sizeClass v) | Alpha _ => alphaLen (sizeClass v) | Str _ => stringLen (sizeClass v) end.
Definition seg_ok (e : Encoding) (v : nat) : Prop :=
  Check e = true /\ Forall byteb (text_of e) /\ (N.of_nat (length (text_of e)) < 2 ^ N.of_nat (count_len e v))%N.
Lemma EncodeE_repr e b l v : seg_ok e v -> repr b l -> repr (EncodeE e b v) (l ++ seg_bits e v).
Proof.
  intros [C [B H]] R. destruct e as [s|s|s]; cbn [EncodeE seg_bits text_of count_len] in *; rewrite !app_assoc.
  - apply (num_groups_repr (length s)); [lia|apply Check_num; exact C|]. apply Write_repr; [|exact H]. apply Write_repr; [exact R|]. reflexivity.
  - apply (alpha_groups_repr (length s)); [lia|apply Check_alpha; exact C|]. apply Write_repr; [|exact H]. apply Write_repr; [exact R|]. reflexivity.
  - apply str_bytes_repr; [exact B|]. apply Write_repr; [|exact H]. apply Write_repr; [exact R|]. reflexivity.
Qed.
Lemma seg_bits_length e v : 4 <= length (seg_bits e v).
Proof. destruct e; cbn [seg_bits]; rewrite app_length, bits_of_length; lia. Qed.
Lemma read_segment e v rest fuel : seg_ok e v ->
  read_segments (S fuel) v (seg_bits e v ++ rest) = option_map (app (text_of e)) (read_segments fuel v rest).
Proof.
  intros [C [B H]]. destruct e as [s|s|s]; cbn [seg_bits text_of count_len] in *; rewrite <- !app_assoc; cbn [read_segments]; rewrite take_bits_app by reflexivity.
  - cbn [N.eqb Pos.eqb]. change (count_bits v 0) with (numLen (sizeClass v)). rewrite take_bits_app by exact H.
    rewrite Nat2N.id, (read_num_ok (length s)); [reflexivity|lia|apply Check_num; exact C].
  - cbn [N.eqb Pos.eqb]. change (count_bits v 1) with (alphaLen (sizeClass v)). rewrite take_bits_app by exact H.
    rewrite Nat2N.id, (read_alnum_ok (length s)); [reflexivity|lia|apply Check_alpha; exact C].
  - cbn [N.eqb Pos.eqb]. change (count_bits v 2) with (stringLen (sizeClass v)). rewrite take_bits_app by exact H.
    rewrite Nat2N.id, read_bytes_ok; [reflexivity|exact B].
Qed.
(** The remainder of the data after the segments: nothing, or a terminator. *)
Definition ends (rest : list bool) : Prop := length rest < 4 \/ exists r, rest = repeat false 4 ++ r.
Lemma read_end rest fuel v : ends rest -> read_segments (S fuel) v rest = Some [].
Proof.
  intros [H|[r ->]]; cbn [read_segments].
  - unfold take_bits. destruct (Nat.ltb_spec (length rest) 4); [reflexivity|lia].
  - change (repeat false 4) with (bits_of 4 0). rewrite take_bits_app by reflexivity. reflexivity.
Qed.
Lemma read_all es : forall v rest fuel, Forall (fun e => seg_ok e v) es -> ends rest -> length es < fuel ->
  read_segments fuel v (flat_map (fun e => seg_bits e v) es ++ rest) = Some (flat_map text_of es).
Proof.
  induction es as [|e es IH]; intros v rest fuel F E L; (destruct fuel as [|fuel]; [lia|]); cbn [flat_map].
  - apply read_end. exact E.
  - inversion F; subst. rewrite <- app_assoc, read_segment by assumption. rewrite IH by (try assumption; cbn in L; lia). reflexivity.
Qed.
Lemma encode_all_repr es : forall v b l, Forall (fun e => seg_ok e v) es -> repr b l ->
  exists b', encode_all v es b = Some b' /\ repr b' (l ++ flat_map (fun e => seg_bits e v) es).
Proof.
  induction es as [|e es IH]; intros v b l F R; cbn [encode_all flat_map]; [exists b; rewrite app_nil_r; auto|].
  inversion F as [|? ? H F']; subst. rewrite (proj1 H). destruct (IH v _ _ F' (EncodeE_repr e b l v H R)) as [b' [E R']].
  exists b'. split; [exact E|]. rewrite <- app_assoc in R'. exact R'.
Qed.
