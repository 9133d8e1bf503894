(** * Counting random streams: every outcome of a draw has the same number of streams. *)
From Coq Require Import ZArith List ListDec Bool Lia Permutation Factorial Arith.
From Verif Require Import PasswordModel PasswordProofs PasswordSpec PasswordCount.
Import ListNotations.
Open Scope nat_scope.

(** ** Finite sums *)
Definition bsum (n : nat) (f : nat -> nat) : nat := sum (map f (seq 0 n)).
Definition ssum {A} (l : list A) (f : A -> nat) : nat := sum (map f l).

Lemma ssum_cons {A} (a : A) l f : ssum (a :: l) f = f a + ssum l f.
Proof. reflexivity. Qed.
Lemma ssum_app {A} (a b : list A) f : ssum (a ++ b) f = ssum a f + ssum b f.
Proof. unfold ssum. rewrite map_app. apply sum_app. Qed.
Lemma ssum_ext {A} (l : list A) f g : (forall x, In x l -> f x = g x) -> ssum l f = ssum l g.
Proof. apply sum_ext. Qed.
Lemma ssum_add {A} (l : list A) f g : ssum l (fun x => f x + g x) = ssum l f + ssum l g.
Proof. induction l as [|x l IH]; [reflexivity|]. rewrite !ssum_cons, IH. lia. Qed.
Lemma ssum_mul {A} (l : list A) c f : ssum l (fun x => c * f x) = c * ssum l f.
Proof. induction l as [|x l IH]; [cbn; lia|]. rewrite !ssum_cons, IH. lia. Qed.
Lemma ssum_mul_r {A} (l : list A) c f : ssum l (fun x => f x * c) = ssum l f * c.
Proof. induction l as [|x l IH]; [cbn; lia|]. rewrite !ssum_cons, IH. lia. Qed.
Lemma ssum_zero {A} (l : list A) : ssum l (fun _ => 0) = 0.
Proof. induction l as [|x l IH]; [reflexivity|]. rewrite !ssum_cons, IH. lia. Qed.
Lemma ssum_swap {A B} (la : list A) (lb : list B) f :
  ssum la (fun a => ssum lb (f a)) = ssum lb (fun b => ssum la (fun a => f a b)).
Proof. apply sum_swap. Qed.
Lemma ssum_flat_map {A B} (g : A -> list B) l f : ssum (flat_map g l) f = ssum l (fun x => ssum (g x) f).
Proof. induction l as [|x l IH]; [reflexivity|]. cbn [flat_map]. rewrite ssum_app, ssum_cons, IH. reflexivity. Qed.
Lemma ssum_map {A B} (g : A -> B) l f : ssum (map g l) f = ssum l (fun x => f (g x)).
Proof. unfold ssum. rewrite map_map. reflexivity. Qed.
Lemma ssum_filter {A} (p : A -> bool) l f : ssum (filter p l) f = ssum l (fun x => if p x then f x else 0).
Proof. induction l as [|x l IH]; [reflexivity|]. cbn [filter]. rewrite ssum_cons. destruct (p x); rewrite ?ssum_cons, IH; reflexivity. Qed.

Lemma bsum_ssum n f : bsum n f = ssum (seq 0 n) f.
Proof. reflexivity. Qed.
Lemma bsum_S n f : bsum (S n) f = bsum n f + f n.
Proof. unfold bsum. rewrite seq_S, map_app, sum_app. cbn. lia. Qed.
Lemma bsum_ext n f g : (forall i, i < n -> f i = g i) -> bsum n f = bsum n g.
Proof. intros H. apply sum_ext. intros x Hx. apply in_seq in Hx. apply H. lia. Qed.
Lemma bsum_add n f g : bsum n (fun i => f i + g i) = bsum n f + bsum n g.
Proof. apply ssum_add. Qed.
Lemma bsum_mul n c f : bsum n (fun i => c * f i) = c * bsum n f.
Proof. apply ssum_mul. Qed.
Lemma bsum_zero n f : (forall i, i < n -> f i = 0) -> bsum n f = 0.
Proof. intros H. rewrite (bsum_ext n f (fun _ => 0) H). apply ssum_zero. Qed.
Lemma bsum_app a b f : bsum (a + b) f = bsum a f + bsum b (fun i => f (a + i)).
Proof.
  induction b as [|b IH]; [rewrite Nat.add_0_r; cbn; lia|].
  rewrite Nat.add_succ_r, !bsum_S, IH. lia.
Qed.
Lemma bsum_prod a m f : bsum (a * m) f = bsum a (fun i => bsum m (fun j => f (i * m + j))).
Proof.
  induction a as [|a IH]; [reflexivity|].
  rewrite bsum_S. replace (S a * m) with (a * m + m) by lia. rewrite bsum_app, IH. reflexivity.
Qed.
Lemma bsum_const n c : bsum n (fun _ => c) = n * c.
Proof. induction n as [|n IH]; [reflexivity|]. rewrite bsum_S, IH. lia. Qed.
Lemma bsum_pick n f k : k < n -> bsum n (fun i => if i =? k then f i else 0) = f k.
Proof.
  induction n as [|n IH]; intros H; [lia|]. rewrite bsum_S.
  destruct (Nat.eqb_spec n k) as [E|E].
  - subst k. rewrite bsum_zero; [reflexivity|]. intros i Hi. destruct (Nat.eqb_spec i n); [lia|reflexivity].
  - rewrite IH by lia. lia.
Qed.
Lemma bsum_extend n m f : n <= m -> bsum n f = bsum m (fun i => if i <? n then f i else 0).
Proof.
  intros H. replace m with (n + (m - n)) by lia. rewrite bsum_app.
  rewrite (bsum_zero (m - n)).
  - rewrite Nat.add_0_r. apply bsum_ext. intros i Hi. destruct (Nat.ltb_spec i n); [reflexivity|lia].
  - intros i Hi. destruct (Nat.ltb_spec (n + i) n); [lia|reflexivity].
Qed.

(** ** Weights: [wsum W N X] is the sum over r <= N of W N r * X r *)
Definition wsum (W : nat -> nat -> nat) (N : nat) (X : nat -> nat) : nat := bsum (S N) (fun r => W N r * X r).
Lemma wsum_ext W N X Y : (forall r, r <= N -> X r = Y r) -> wsum W N X = wsum W N Y.
Proof. intros H. apply bsum_ext. intros r Hr. rewrite H by lia. reflexivity. Qed.
Lemma wsum_mul W N c X : wsum W N (fun r => c * X r) = c * wsum W N X.
Proof. unfold wsum. rewrite <- bsum_mul. apply bsum_ext. intros r _. lia. Qed.
Definition wid : nat -> nat -> nat := fun N r => if r =? N then 1 else 0.
Lemma wsum_id N X : wsum wid N X = X N.
Proof.
  unfold wsum, wid. rewrite <- (bsum_pick (S N) X N) by lia. apply bsum_ext. intros r _.
  destruct (r =? N); lia.
Qed.
Definition wcomp (W V : nat -> nat -> nat) : nat -> nat -> nat :=
  fun N r' => bsum (S N) (fun r => if r' <? S r then W N r * V r r' else 0).
Lemma wsum_comp W V N X : wsum W N (fun r => wsum V r X) = wsum (wcomp W V) N X.
Proof.
  unfold wsum at 1 3. unfold wcomp.
  rewrite (bsum_ext _ _ (fun r => bsum (S N) (fun r' => if r' <? S r then W N r * V r r' * X r' else 0))).
  - rewrite !bsum_ssum. unfold bsum.
    change (ssum (seq 0 (S N)) (fun r => ssum (seq 0 (S N)) (fun r' => if r' <? S r then W N r * V r r' * X r' else 0)) =
      ssum (seq 0 (S N)) (fun r' => ssum (seq 0 (S N)) (fun r => if r' <? S r then W N r * V r r' else 0) * X r')).
    rewrite ssum_swap. apply ssum_ext. intros r' _.
    rewrite <- ssum_mul_r. apply ssum_ext. intros r _. destruct (r' <? S r); lia.
  - intros r Hr. unfold wsum. rewrite (bsum_extend (S r) (S N)) by lia. rewrite <- bsum_mul.
    apply bsum_ext. intros r' _. destruct (r' <? S r); lia.
Qed.
Definition wadd (W V : nat -> nat -> nat) : nat -> nat -> nat := fun N r => W N r + V N r.
Lemma wsum_add W V N X : wsum (wadd W V) N X = wsum W N X + wsum V N X.
Proof. unfold wsum. rewrite <- bsum_add. apply bsum_ext. intros r _. unfold wadd. lia. Qed.
Definition wscale (c : nat) (W : nat -> nat -> nat) : nat -> nat -> nat := fun N r => c * W N r.
Lemma wsum_scale c W N X : wsum (wscale c W) N X = c * wsum W N X.
Proof. unfold wsum. rewrite <- bsum_mul. apply bsum_ext. intros r _. unfold wscale. lia. Qed.

(** ** Byte strings *)
Definition byte_vals : list Z := map Z.of_nat (seq 0 256).
Lemma all_bytes_S k : all_bytes (S k) = flat_map (fun x => map (fun l => x :: l) (all_bytes k)) byte_vals.
Proof. reflexivity. Qed.
Lemma all_bytes_length k : forall s, In s (all_bytes k) -> length s = k.
Proof.
  induction k as [|k IH]; intros s H.
  - destruct H as [<-|[]]. reflexivity.
  - rewrite all_bytes_S in H. apply in_flat_map in H. destruct H as [x [_ H]].
    apply in_map_iff in H. destruct H as [l [<- H]]. cbn. f_equal. auto.
Qed.
Lemma all_bytes_iff s : bytes s <-> In s (all_bytes (length s)).
Proof.
  induction s as [|x s IH].
  - split; [left; reflexivity|constructor].
  - cbn [length]. rewrite all_bytes_S, in_flat_map. unfold byte_vals. split.
    + intros H. inversion H; subst. exists x. split.
      * apply in_map_iff. exists (Z.to_nat x). split; [lia|]. apply in_seq. lia.
      * apply in_map. apply IH. assumption.
    + intros [y [H1 H2]]. apply in_map_iff in H2. destruct H2 as [l [E H2]]. inversion E; subst.
      apply in_map_iff in H1. destruct H1 as [n [<- H1]]. apply in_seq in H1.
      constructor; [lia|]. apply IH. exact H2.
Qed.
Lemma ssum_all_bytes_S k f :
  ssum (all_bytes (S k)) f = bsum 256 (fun x => ssum (all_bytes k) (fun l => f (Z.of_nat x :: l))).
Proof.
  rewrite all_bytes_S, ssum_flat_map. unfold byte_vals. rewrite ssum_map, bsum_ssum.
  apply ssum_ext. intros x _. rewrite ssum_map. reflexivity.
Qed.
Lemma ssum_all_bytes_app k m f :
  ssum (all_bytes (k + m)) f = ssum (all_bytes k) (fun p => ssum (all_bytes m) (fun q => f (p ++ q))).
Proof.
  revert f. induction k as [|k IH]; intros f.
  - change (0 + m) with m. change (all_bytes 0) with [@nil Z]. rewrite ssum_cons.
    change (@ssum (list Z) [] _) with 0. rewrite Nat.add_0_r. reflexivity.
  - change (S k + m) with (S (k + m)). rewrite !ssum_all_bytes_S. apply bsum_ext. intros x _.
    rewrite IH. reflexivity.
Qed.

Lemma ssum_big_endian k g : ssum (all_bytes k) (fun p => g (big_endian p)) = bsum (256 ^ k) (fun n => g (Z.of_nat n)).
Proof.
  revert g. induction k as [|k IH]; intros g; [reflexivity|].
  rewrite ssum_all_bytes_S.
  change (256 ^ S k) with (256 * 256 ^ k). rewrite bsum_prod. apply bsum_ext. intros x _.
  rewrite (ssum_ext _ _ (fun l => (fun v => g (Z.of_nat x * 256 ^ Z.of_nat k + v)%Z) (big_endian l))).
  - rewrite (IH (fun v => g (Z.of_nat x * 256 ^ Z.of_nat k + v)%Z)). apply bsum_ext. intros n _. f_equal. rewrite Nat2Z.inj_add, Nat2Z.inj_mul, Nat2Z.inj_pow. reflexivity.
  - intros l Hl. rewrite big_endian_cons, (all_bytes_length _ _ Hl). reflexivity.
Qed.
Lemma bsum_land b g : b <= 8 ->
  bsum 256 (fun x => g (Z.land (Z.of_nat x) (2 ^ Z.of_nat b - 1))) = 2 ^ (8 - b) * bsum (2 ^ b) (fun n => g (Z.of_nat n)).
Proof.
  intros Hb. replace 256 with (2 ^ (8 - b) * 2 ^ b) by (rewrite <- Nat.pow_add_r; replace (8 - b + b) with 8 by lia; reflexivity).
  rewrite bsum_prod, <- bsum_const. apply bsum_ext. intros i _. apply bsum_ext. intros j Hj. f_equal.
  replace (2 ^ Z.of_nat b - 1)%Z with (Z.ones (Z.of_nat b)) by (rewrite Z.ones_equiv; lia).
  rewrite Z.land_ones by lia. rewrite Nat2Z.inj_add, Nat2Z.inj_mul, Nat2Z.inj_pow.
  change (Z.of_nat 2) with 2%Z.
  rewrite Z.add_comm, Z.mod_add by (apply Z.pow_nonzero; lia). apply Z.mod_small.
  change 2%Z with (Z.of_nat 2). rewrite <- Nat2Z.inj_pow. lia.
Qed.
(** The masked draw of k+1 bytes hits every value below 2^b * 256^k equally often. *)
Lemma ssum_masked b k g : b <= 8 ->
  ssum (all_bytes (S k)) (fun p => g (big_endian (mask_first (Z.of_nat b) p)))
  = 2 ^ (8 - b) * bsum (2 ^ b * 256 ^ k) (fun n => g (Z.of_nat n)).
Proof.
  intros Hb. rewrite ssum_all_bytes_S.
  rewrite (bsum_ext _ _ (fun x => (fun y => bsum (256 ^ k) (fun n => g (y * 256 ^ Z.of_nat k + Z.of_nat n)%Z))
      (Z.land (Z.of_nat x) (2 ^ Z.of_nat b - 1)))).
  - rewrite (bsum_land b (fun y => bsum (256 ^ k) (fun n => g (y * 256 ^ Z.of_nat k + Z.of_nat n)%Z))) by exact Hb.
    f_equal. rewrite bsum_prod. apply bsum_ext. intros x _.
    apply bsum_ext. intros n _. f_equal. rewrite Nat2Z.inj_add, Nat2Z.inj_mul, Nat2Z.inj_pow. reflexivity.
  - intros x _. cbn [mask_first].
    rewrite <- (ssum_big_endian k (fun v => g (Z.land (Z.of_nat x) (2 ^ Z.of_nat b - 1) * 256 ^ Z.of_nat k + v)%Z)).
    apply ssum_ext. intros l Hl. rewrite big_endian_cons, (all_bytes_length _ _ Hl). reflexivity.
Qed.

(** ** rand.Int *)
Definition ev {A} (r : result A) (G : A -> list Z -> nat) : nat :=
  match r with Ok a rest => G a rest | _ => 0 end.

Fixpoint w_loop (fuel k b max : nat) (N r : nat) : nat :=
  match fuel with
  | 0 => 0
  | S f =>
      if N <? S k then 0
      else (if r =? N - S k then 2 ^ (8 - b) else 0)
           + (2 ^ (8 - b) * (2 ^ b * 256 ^ k - max)) * (if r <? S (N - S k) then w_loop f k b max (N - S k) r else 0)
  end.

Lemma rand_loop_sum fuel k b max : b <= 8 -> max <= 2 ^ b * 256 ^ k ->
  forall N G, ssum (all_bytes N) (fun s => ev (rand_loop fuel (S k) (Z.of_nat b) (Z.of_nat max) s) G)
    = wsum (w_loop fuel k b max) N (fun r => bsum max (fun n => ssum (all_bytes r) (G (Z.of_nat n)))).
Proof.
  intros Hb Hm. induction fuel as [|f IH]; intros N G.
  - cbn [rand_loop ev]. rewrite ssum_zero. unfold wsum. symmetry. apply bsum_zero. intros i _. reflexivity.
  - destruct (Nat.ltb_spec N (S k)) as [L|L].
    + rewrite (ssum_ext _ _ (fun _ => 0)).
      * rewrite ssum_zero. unfold wsum. symmetry. apply bsum_zero. intros i _. cbn [w_loop].
        destruct (Nat.ltb_spec N (S k)); [reflexivity|lia].
      * intros s Hs. cbn [rand_loop]. rewrite (all_bytes_length _ _ Hs).
        destruct (Nat.ltb_spec N (S k)); [reflexivity|lia].
    + remember (N - S k) as M eqn:EM. assert (EN : N = S k + M) by lia. rewrite EN at 1.
      rewrite ssum_all_bytes_app.
      rewrite (ssum_ext _ _ (fun p => (fun v : Z => if (v <? Z.of_nat max)%Z then ssum (all_bytes M) (G v)
            else ssum (all_bytes M) (fun q => ev (rand_loop f (S k) (Z.of_nat b) (Z.of_nat max) q) G))
            (big_endian (mask_first (Z.of_nat b) p)))).
      2:{ intros p Hp. pose proof (all_bytes_length _ _ Hp) as Lp.
          destruct (Z.ltb_spec (big_endian (mask_first (Z.of_nat b) p)) (Z.of_nat max)) as [V|V].
          - apply ssum_ext. intros q _. cbn [rand_loop]. rewrite app_length, Lp.
            destruct (Nat.ltb_spec (S k + length q) (S k)); [lia|].
            rewrite <- Lp, firstn_app, Nat.sub_diag, firstn_O, app_nil_r, firstn_all.
            destruct (Z.ltb_spec (big_endian (mask_first (Z.of_nat b) p)) (Z.of_nat max)); [|lia].
            rewrite skipn_app, Nat.sub_diag, skipn_O, skipn_all. reflexivity.
          - apply ssum_ext. intros q _. cbn [rand_loop]. rewrite app_length, Lp.
            destruct (Nat.ltb_spec (S k + length q) (S k)); [lia|].
            rewrite <- Lp, firstn_app, Nat.sub_diag, firstn_O, app_nil_r, firstn_all.
            destruct (Z.ltb_spec (big_endian (mask_first (Z.of_nat b) p)) (Z.of_nat max)); [lia|].
            rewrite skipn_app, Nat.sub_diag, skipn_O, skipn_all. reflexivity. }
      rewrite (ssum_masked b k (fun v : Z => if (v <? Z.of_nat max)%Z then ssum (all_bytes M) (G v)
            else ssum (all_bytes M) (fun q => ev (rand_loop f (S k) (Z.of_nat b) (Z.of_nat max) q) G))) by exact Hb.
      rewrite IH. replace (2 ^ b * 256 ^ k) with (max + (2 ^ b * 256 ^ k - max)) by lia. rewrite bsum_app.
      remember (2 ^ b * 256 ^ k - max) as R eqn:ER.
      rewrite (bsum_ext max _ (fun n => ssum (all_bytes M) (G (Z.of_nat n)))).
      2:{ intros i Hi. destruct (Z.ltb_spec (Z.of_nat i) (Z.of_nat max)); [reflexivity|lia]. }
      rewrite (bsum_ext R _ (fun _ => wsum (w_loop f k b max) M (fun r => bsum max (fun n => ssum (all_bytes r) (G (Z.of_nat n)))))).
      2:{ intros i Hi. destruct (Z.ltb_spec (Z.of_nat (max + i)) (Z.of_nat max)); [lia|reflexivity]. }
      rewrite bsum_const.
      set (Y := fun r => bsum max (fun n => ssum (all_bytes r) (G (Z.of_nat n)))).
      change (bsum max (fun n => ssum (all_bytes M) (G (Z.of_nat n)))) with (Y M).
      unfold wsum at 2.
      rewrite (bsum_ext (S N) _ (fun r => (if r =? M then 2 ^ (8 - b) * Y r else 0)
             + (2 ^ (8 - b) * R) * (if r <? S M then w_loop f k b max M r * Y r else 0))).
      2:{ intros r _. cbn [w_loop]. destruct (Nat.ltb_spec N (S k)); [lia|]. rewrite <- EM, <- ER.
          destruct (r =? M), (r <? S M); lia. }
      rewrite bsum_add, bsum_mul.
      rewrite (bsum_pick (S N) (fun r => 2 ^ (8 - b) * Y r)) by lia.
      rewrite <- (bsum_extend (S M) (S N) (fun r => w_loop f k b max M r * Y r)) by lia.
      unfold wsum. lia.
Qed.

Lemma rand_Int_params m : 1 < m -> exists b k, b <= 8 /\ m <= 2 ^ b * 256 ^ k /\
  forall s, rand_Int s (Z.of_nat m) = rand_loop (S (length s)) (S k) (Z.of_nat b) (Z.of_nat m) s.
Proof.
  intros Hm. unfold rand_Int.
  destruct (Z.leb_spec (Z.of_nat m) 0) as [X|_]; [lia|].
  destruct (Z.eqb_spec (bit_len (Z.of_nat m - 1)) 0) as [B|B].
  - pose proof (bit_len_pos (Z.of_nat m - 1)). lia.
  - cbv zeta. set (bl := bit_len (Z.of_nat m - 1)) in *.
    assert (Hbl : (0 < bl)%Z /\ (Z.of_nat m <= 2 ^ bl)%Z).
    { unfold bl, bit_len in *. destruct (Z.leb_spec (Z.of_nat m - 1) 0); [lia|].
      pose proof (Z.log2_nonneg (Z.of_nat m - 1)). split; [lia|].
      pose proof (Z.log2_spec (Z.of_nat m - 1) ltac:(lia)). change (Z.succ (Z.log2 (Z.of_nat m - 1))) with (Z.log2 (Z.of_nat m - 1) + 1)%Z in *. lia. }
    destruct Hbl as [Hbl Hm2].
    set (b := if (bl mod 8 =? 0)%Z then 8%Z else (bl mod 8)%Z).
    assert (Hb : (1 <= b <= 8)%Z /\ ((bl + 7) / 8 = (bl - b) / 8 + 1)%Z /\ (bl = b + 8 * ((bl - b) / 8))%Z).
    { unfold b. pose proof (Z.div_mod bl 8 ltac:(lia)) as DM. pose proof (Z.mod_pos_bound bl 8 ltac:(lia)).
      destruct (Z.eqb_spec (bl mod 8) 0) as [E|E].
      - replace (bl - 8)%Z with ((bl / 8 - 1) * 8)%Z by lia. rewrite Z.div_mul by lia.
        split; [lia|]. split; [|lia].
        replace (bl + 7)%Z with (7 + (bl / 8) * 8)%Z by lia. rewrite Z.div_add by lia. change (7 / 8)%Z with 0%Z. lia.
      - replace (bl - bl mod 8)%Z with ((bl / 8) * 8)%Z by lia. rewrite Z.div_mul by lia.
        split; [lia|]. split; [|lia].
        replace (bl + 7)%Z with ((7 + bl mod 8) + (bl / 8) * 8)%Z by lia. rewrite Z.div_add by lia.
        replace ((7 + bl mod 8) / 8)%Z with 1%Z; [lia|]. apply Z.div_unique with (r := (bl mod 8 - 1)%Z); lia. }
    destruct Hb as [Hb [Hk Hbl2]].
    set (k := Z.to_nat ((bl - b) / 8)).
    assert (Hq : (0 <= (bl - b) / 8)%Z).
    { apply Z.div_pos; [|lia]. unfold b. pose proof (Z.div_mod bl 8 ltac:(lia)). pose proof (Z.mod_pos_bound bl 8 ltac:(lia)).
      destruct (Z.eqb_spec (bl mod 8) 0); [|lia]. assert (1 <= bl / 8)%Z by lia. lia. }
    replace (Z.to_nat ((bl + 7) / 8)) with (S k) by (unfold k; lia).
    exists (Z.to_nat b), k. split; [lia|]. split.
    + apply Nat2Z.inj_le. rewrite Nat2Z.inj_mul, !Nat2Z.inj_pow. change (Z.of_nat 2) with 2%Z. change (Z.of_nat 256) with (2 ^ 8)%Z.
      rewrite <- Z.pow_mul_r by lia. rewrite <- Z.pow_add_r by lia. unfold k. rewrite !Z2Nat.id by lia.
      replace (b + 8 * ((bl - b) / 8))%Z with bl by lia. exact Hm2.
    + intros s. replace (Z.of_nat (Z.to_nat b)) with b by lia. reflexivity.
Qed.
Lemma rand_Int_one s : rand_Int s 1 = Ok 0%Z s.
Proof. reflexivity. Qed.

Lemma rand_Int_sum m : 0 < m -> exists W, forall N G,
  ssum (all_bytes N) (fun s => ev (rand_Int s (Z.of_nat m)) G)
  = wsum W N (fun r => bsum m (fun n => ssum (all_bytes r) (G (Z.of_nat n)))).
Proof.
  intros Hm. destruct (Nat.eq_dec m 1) as [->|H1].
  - exists wid. intros N G. rewrite wsum_id. change (Z.of_nat 1) with 1%Z. rewrite bsum_S. reflexivity.
  - destruct (rand_Int_params m ltac:(lia)) as [b [k [Hb [Hk HR]]]].
    exists (fun N => w_loop (S N) k b m N). intros N G.
    rewrite (ssum_ext _ _ (fun s => ev (rand_loop (S N) (S k) (Z.of_nat b) (Z.of_nat m) s) G)).
    2:{ intros s Hs. rewrite HR, (all_bytes_length _ _ Hs). reflexivity. }
    apply rand_loop_sum; assumption.
Qed.

Lemma ssum_pos_in {A} (l : list A) f : 0 < ssum l f -> exists x, In x l /\ 0 < f x.
Proof.
  induction l as [|x l IH]; intros H; [cbn in H; lia|]. rewrite ssum_cons in H.
  destruct (f x) eqn:E; [|exists x; split; [left; reflexivity|lia]].
  destruct (IH ltac:(lia)) as [y [H1 H2]]. exists y. split; [right; exact H1|exact H2].
Qed.
(** Every value below max can be drawn. *)
Lemma rand_Int_hit m n : n < m -> exists bs, bytes bs /\ forall rest, rand_Int (bs ++ rest) (Z.of_nat m) = Ok (Z.of_nat n) rest.
Proof.
  intros Hn. destruct (Nat.eq_dec m 1) as [->|H1].
  - exists []. split; [constructor|]. intros rest. assert (n = 0) by lia. subst n. reflexivity.
  - destruct (rand_Int_params m ltac:(lia)) as [b [k [Hb [Hk HR]]]].
    pose proof (ssum_masked b k (fun v => if (v =? Z.of_nat n)%Z then 1 else 0) Hb) as M.
    cbv beta in M.
    rewrite (bsum_ext (2 ^ b * 256 ^ k) _ (fun i => if i =? n then 1 else 0)) in M.
    2:{ intros i _. destruct (Z.eqb_spec (Z.of_nat i) (Z.of_nat n)), (Nat.eqb_spec i n); lia. }
    rewrite (bsum_pick _ (fun _ => 1)) in M by lia.
    assert (P : 0 < ssum (all_bytes (S k)) (fun p => if (big_endian (mask_first (Z.of_nat b) p) =? Z.of_nat n)%Z then 1 else 0)).
    { rewrite M. pose proof (Nat.pow_nonzero 2 (8 - b)). lia. }
    apply ssum_pos_in in P. destruct P as [p [Hp E]].
    destruct (Z.eqb_spec (big_endian (mask_first (Z.of_nat b) p)) (Z.of_nat n)) as [E2|]; [|lia].
    pose proof (all_bytes_length _ _ Hp) as Lp.
    exists p. split; [apply all_bytes_iff; rewrite Lp; exact Hp|]. intros rest. rewrite HR. cbn [rand_loop].
    rewrite app_length, Lp. destruct (Nat.ltb_spec (S k + length rest) (S k)); [lia|].
    rewrite <- Lp, firstn_app, Nat.sub_diag, firstn_O, app_nil_r, firstn_all, E2.
    destruct (Z.ltb_spec (Z.of_nat n) (Z.of_nat m)); [|lia].
    rewrite skipn_app, Nat.sub_diag, skipn_O, skipn_all. reflexivity.
Qed.
