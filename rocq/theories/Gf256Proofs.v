(** * The tables NewField builds, and the field laws of the accepted fields. *)
From Coq Require Import NArith ZArith List Bool Lia Arith FinFun.
From Verif Require Import Gf256Model Gf256Spec Gf2Poly.
Import ListNotations.
Open Scope N_scope.

Fixpoint pw (P a : N) (k : nat) : N := match k with O => 1 | S k' => mul (pw P a k') a P end.

(** ** Lists *)
Lemma upd_length {A} (l : list A) i v : length (upd l i v) = length l.
Proof. revert i. induction l as [|x l IH]; intros [|i]; cbn; auto. Qed.
Lemma upd_same {A} (l : list A) i v d : (i < length l)%nat -> nth i (upd l i v) d = v.
Proof. revert i. induction l as [|x l IH]; intros [|i] H; cbn in *; try lia; auto. apply IH. lia. Qed.
Lemma upd_other {A} (l : list A) i j v d : i <> j -> nth j (upd l i v) d = nth j l d.
Proof. revert i j. induction l as [|x l IH]; intros [|i] [|j] H; cbn; auto; try lia. Qed.

Section Tables.
  Variables P a : N.
  Hypothesis HP : 256 <= P < 512.
  Hypothesis Ha : a < 256.
  Notation pw := (pw P a).

  Lemma pw_small k : pw k < 256.
  Proof. destruct k; cbn [Gf256Proofs.pw]; [lia|]. apply mul_ok; assumption. Qed.
  Lemma pw_cong k : cong P (pw k) (clpow a k).
  Proof.
    induction k as [|k IH]; [apply cong_refl|]. cbn [Gf256Proofs.pw clpow].
    eapply cong_trans; [apply mul_ok; assumption|]. apply cong_clmul; [exact IH|apply cong_refl].
  Qed.
  Lemma pw_unique k b : b < 256 -> cong P (clpow a k) b -> pw k = b.
  Proof.
    intros Hb C. apply (small_unique P HP); [apply pw_small|exact Hb|]. eapply cong_trans; [apply pw_cong|exact C].
  Qed.

  Lemma tables_spec steps : forall i exp log exp' log',
    length exp = 510%nat -> length log = 256%nat -> (i + steps <= 255)%nat ->
    tables steps i (pw i) a P exp log = Some (exp', log') ->
    length exp' = 510%nat /\ length log' = 256%nat
    /\ (forall j, (i <= j < i + steps)%nat -> nth j exp' 0 = pw j /\ nth (j + 255) exp' 0 = pw j)
    /\ (forall j, ~ (i <= j < i + steps)%nat -> (j < 255)%nat -> nth j exp' 0 = nth j exp 0 /\ nth (j + 255) exp' 0 = nth (j + 255) exp 0)
    /\ (forall j, (i <= j < i + steps)%nat -> j <> 0%nat -> pw j <> 1).
  Proof.
    induction steps as [|s IH]; intros i exp log exp' log' Le Ll Hi E; cbn [tables] in E.
    - inversion E; subst. repeat split; auto; lia.
    - destruct ((pw i =? 1) && negb (Nat.eqb i 0)) eqn:C; [discriminate|].
      change (mul (pw i) a P) with (pw (S i)) in E.
      apply IH in E; [|rewrite !upd_length; exact Le|rewrite upd_length; exact Ll|lia].
      destruct E as [E1 [E2 [E3 [E4 E5]]]]. split; [exact E1|]. split; [exact E2|]. split; [|split].
      + intros j Hj. destruct (Nat.eq_dec j i) as [->|Hne]; [|apply E3; lia].
        destruct (E4 i ltac:(lia) ltac:(lia)) as [F1 F2]. rewrite F1, F2.
        rewrite upd_other by lia. rewrite upd_same by lia. rewrite upd_same by (rewrite upd_length; lia). auto.
      + intros j Hj Hj2. destruct (E4 j ltac:(lia) Hj2) as [F1 F2]. rewrite F1, F2.
        rewrite !upd_other by lia. auto.
      + intros j Hj Hj0. destruct (Nat.eq_dec j i) as [->|Hne]; [|apply E5; lia].
        intros X. rewrite X in C. destruct i; [lia|discriminate].
  Qed.
  (** The loop goes through when no early power is 1, and then log inverts the distinct powers. *)
  Lemma tables_total steps : forall i exp log,
    length exp = 510%nat -> length log = 256%nat -> (i + steps <= 255)%nat ->
    (forall j, (i <= j < i + steps)%nat -> j <> 0%nat -> pw j <> 1) ->
    (forall j k, (j < 255)%nat -> (k < 255)%nat -> pw j = pw k -> j = k) ->
    exists exp' log', tables steps i (pw i) a P exp log = Some (exp', log') /\ length log' = 256%nat
      /\ (forall j, (i <= j < i + steps)%nat -> nth (N.to_nat (pw j)) log' 0 = N.of_nat j)
      /\ (forall j, ~ (i <= j < i + steps)%nat -> (j < 255)%nat -> nth (N.to_nat (pw j)) log' 0 = nth (N.to_nat (pw j)) log 0).
  Proof.
    induction steps as [|s IH]; intros i exp log Le Ll Hi H1 Inj; cbn [tables].
    - exists exp, log. split; [reflexivity|]. split; [exact Ll|]. split; [lia|auto].
    - replace ((pw i =? 1) && negb (Nat.eqb i 0)) with false.
      2:{ symmetry. destruct (Nat.eqb_spec i 0); [apply andb_false_r|]. rewrite andb_true_r. apply N.eqb_neq. apply H1; lia. }
      change (mul (pw i) a P) with (pw (S i)).
      destruct (IH (S i) (upd (upd exp i (pw i)) (i + 255) (pw i)) (upd log (N.to_nat (pw i)) (N.of_nat i))) as [e' [l' [E [L [F1 F2]]]]].
      + rewrite !upd_length. exact Le.
      + rewrite upd_length. exact Ll.
      + lia.
      + intros j Hj. apply H1. lia.
      + exact Inj.
      + exists e', l'. split; [exact E|]. split; [exact L|]. split.
        * intros j Hj. destruct (Nat.eq_dec j i) as [->|Hne]; [|apply F1; lia].
          rewrite F2 by lia. apply upd_same. pose proof (pw_small i). lia.
        * intros j Hj Hj2. rewrite F2 by lia. apply upd_other. intros X. apply Hj.
          assert (i = j); [|lia]. apply Inj; lia.
  Qed.

  (** ** When the powers 0..254 are distinct and non-zero they are all non-zero bytes *)
  Hypothesis Inj : forall j k, (j < 255)%nat -> (k < 255)%nat -> pw j = pw k -> j = k.
  Hypothesis Nz : forall j, (j < 255)%nat -> pw j <> 0.

  Lemma powers_nodup n : (n <= 255)%nat -> NoDup (map pw (seq 0 n)).
  Proof.
    intros Hn. apply NoDup_nth with (d := 0). rewrite map_length, seq_length. intros i j Hi Hj E.
    rewrite (nth_indep _ 0 (pw 0)) in E by (rewrite map_length, seq_length; exact Hi).
    rewrite (nth_indep (map pw (seq 0 n)) 0 (pw 0)) in E by (rewrite map_length, seq_length; exact Hj).
    rewrite !map_nth, !seq_nth in E by assumption. apply Inj; cbn in *; lia.
  Qed.
  Lemma all_powers b : 1 <= b < 256 -> exists i, (i < 255)%nat /\ pw i = b.
  Proof.
    intros Hb.
    assert (I : incl (map N.of_nat (seq 1 255)) (map pw (seq 0 255))).
    { apply (NoDup_length_incl (powers_nodup 255 (le_n _))).
      - rewrite !map_length, !seq_length. lia.
      - intros x Hx. apply in_map_iff in Hx. destruct Hx as [i [<- Hi]]. apply in_seq in Hi.
        pose proof (pw_small i). pose proof (Nz i ltac:(lia)).
        apply in_map_iff. exists (N.to_nat (pw i)). split; [apply N2Nat.id|]. apply in_seq. lia. }
    specialize (I b). destruct (in_map_iff pw (seq 0 255) b) as [H _].
    destruct H as [i [E Hi]].
    - apply I. apply in_map_iff. exists (N.to_nat b). split; [apply N2Nat.id|]. apply in_seq. lia.
    - apply in_seq in Hi. exists i. split; [lia|exact E].
  Qed.

  Lemma lxor_small x y : x < 256 -> y < 256 -> N.lxor x y < 256.
  Proof. intros. change 256 with (2 ^ 8). apply lxor_lt; assumption. Qed.

  Lemma alpha_inv : exists b, b < 256 /\ mul b a P = 1.
  Proof.
    assert (A1 : pw 1 = a) by reflexivity.
    assert (Na1 : a <> 1). { intros E. assert (1 = 0)%nat; [|lia]. apply Inj; try lia. rewrite A1. exact E. }
    assert (Na0 : a <> 0) by (rewrite <- A1; apply Nz; lia).
    destruct (all_powers (N.lxor 1 a)) as [k [Hk E]].
    { pose proof (lxor_small 1 a ltac:(lia) Ha). split; [|assumption].
      destruct (N.eq_dec (N.lxor 1 a) 0) as [X|X]; [|lia]. apply N.lxor_eq in X. congruence. }
    destruct k as [|k].
    - cbn [Gf256Proofs.pw] in E. exfalso. apply Na0. rewrite <- (N.lxor_0_l a), <- (N.lxor_nilpotent 1), N.lxor_assoc, <- E. apply N.lxor_nilpotent.
    - exists (N.lxor 1 (pw k)). pose proof (pw_small k). split; [apply lxor_small; lia|].
      rewrite (mul_comm P HP) by (try apply lxor_small; lia).
      rewrite (mul_lxor_r P HP) by lia. rewrite (mul_comm P HP a 1), (mul_comm P HP a (pw k)) by lia.
      rewrite mul_1_l by lia. change (mul (pw k) a P) with (pw (S k)). rewrite E.
      rewrite (N.lxor_comm 1 a), <- N.lxor_assoc, N.lxor_nilpotent. reflexivity.
  Qed.
  Lemma mul_alpha_cancel x y : x < 256 -> y < 256 -> mul x a P = mul y a P -> x = y.
  Proof.
    intros Hx Hy E. destruct alpha_inv as [b [Hb B]].
    assert (X : forall z, z < 256 -> mul (mul z a P) b P = z).
    { intros z Hz. rewrite (mul_assoc P HP) by lia. rewrite (mul_comm P HP a b) by lia. rewrite B.
      rewrite (mul_comm P HP) by lia. reflexivity. }
    rewrite <- (X x Hx), <- (X y Hy), E. reflexivity.
  Qed.
  Lemma pw_255 : pw 255 = 1.
  Proof.
    change (pw 255) with (mul (pw 254) a P).
    pose proof (pw_small 255) as Sm. change (pw 255) with (mul (pw 254) a P) in Sm.
    assert (N0 : mul (pw 254) a P <> 0).
    { intros E. apply (Nz 254); [lia|]. apply mul_alpha_cancel; [apply pw_small|lia|]. rewrite E. reflexivity. }
    destruct (all_powers (mul (pw 254) a P) ltac:(lia)) as [j [Hj E]]. destruct j as [|j]; [symmetry; exact E|].
    exfalso. change (pw (S j)) with (mul (pw j) a P) in E. apply mul_alpha_cancel in E; try apply pw_small.
    apply Inj in E; lia.
  Qed.
  Lemma pw_add i j : pw (i + j) = mul (pw i) (pw j) P.
  Proof.
    induction j as [|j IH].
    - rewrite Nat.add_0_r. rewrite (mul_comm P HP) by (try apply pw_small; lia). reflexivity.
    - rewrite Nat.add_succ_r. cbn [Gf256Proofs.pw]. rewrite IH. apply (mul_assoc P HP); try apply pw_small. exact Ha.
  Qed.
  Lemma pw_mod k : pw (k mod 255) = pw k.
  Proof.
    rewrite (Nat.div_mod k 255) at 2 by lia. rewrite Nat.add_comm.
    generalize (k / 255)%nat. intros q. induction q as [|q IH]; [rewrite Nat.mul_0_r, Nat.add_0_r; reflexivity|].
    replace (k mod 255 + 255 * S q)%nat with (k mod 255 + 255 * q + 255)%nat by lia.
    rewrite pw_add, pw_255, <- IH. rewrite (mul_comm P HP) by (try apply pw_small; lia). reflexivity.
  Qed.
End Tables.

(** ** What acceptance means *)
Record good (f : Field) (P a : N) : Prop := {
  g_P : 256 <= P < 512;
  g_a : a < 256;
  g_exp : forall i, (i < 510)%nat -> nth i (f_exp f) 0 = pw P a (i mod 255);
  g_log : forall i, (i < 255)%nat -> nth (N.to_nat (pw P a i)) (f_log f) 0 = N.of_nat i;
  g_inj : forall j k, (j < 255)%nat -> (k < 255)%nat -> pw P a j = pw P a k -> j = k;
  g_nz : forall j, (j < 255)%nat -> pw P a j <> 0;
  g_len : length (f_exp f) = 510%nat
}.

Lemma NewField_good poly alpha f : NewField poly alpha = Some f ->
  good f (Z.to_N poly) (Z.to_N alpha) /\ irreducible8 (Z.to_N poly) /\ generates (Z.to_N poly) (Z.to_N alpha)
  /\ (256 <= poly < 512)%Z /\ (0 <= alpha < 256)%Z.
Proof.
  unfold NewField. destruct ((poly <? 256)%Z || (poly >=? 512)%Z) eqn:R1; [discriminate|].
  apply orb_false_iff in R1. destruct R1 as [R1 R2]. apply Z.ltb_ge in R1. rewrite Z.geb_leb in R2. apply Z.leb_gt in R2.
  destruct (reducible (Z.to_N poly)) eqn:Rd; [discriminate|].
  destruct ((alpha <? 0)%Z || (alpha >=? 256)%Z) eqn:R3; [discriminate|].
  apply orb_false_iff in R3. destruct R3 as [R3 R4]. apply Z.ltb_ge in R3. rewrite Z.geb_leb in R4. apply Z.leb_gt in R4.
  set (P := Z.to_N poly) in *. set (a := Z.to_N alpha).
  assert (HP : 256 <= P < 512) by (unfold P; lia). assert (Ha : a < 256) by (unfold a; lia).
  change 1 with (pw P a 0) at 1.
  destruct (tables 255 0 (pw P a 0) a P (repeat 0 510) (repeat 0 256)) as [[exp log]|] eqn:T; [|discriminate].
  destruct (logs_ok exp (upd log 0 255)) eqn:LO; [|discriminate]. intros E. inversion E; subst f. clear E.
  apply (tables_spec P a HP Ha) in T; [|apply repeat_length|apply repeat_length|lia].
  destruct T as [Le [Ll [Ex [_ Np1]]]].
  unfold logs_ok in LO. apply andb_true_iff in LO. destruct LO as [LO1 LO2]. rewrite forallb_forall in LO1, LO2.
  assert (Lg : forall i, (i < 255)%nat -> nth (N.to_nat (pw P a i)) (upd log 0 255) 0 = N.of_nat i).
  { intros i Hi. specialize (LO1 i ltac:(apply in_seq; lia)). apply andb_true_iff in LO1. destruct LO1 as [X _].
    apply N.eqb_eq in X. rewrite (proj1 (Ex i ltac:(lia))) in X. exact X. }
  assert (Inj : forall j k, (j < 255)%nat -> (k < 255)%nat -> pw P a j = pw P a k -> j = k).
  { intros j k Hj Hk X. apply Nat2N.inj. rewrite <- (Lg j Hj), <- (Lg k Hk), X. reflexivity. }
  assert (Nz : forall j, (j < 255)%nat -> pw P a j <> 0).
  { intros j Hj X. pose proof (Lg j Hj) as Y. rewrite X in Y. change (N.to_nat 0) with 0%nat in Y. rewrite upd_same in Y by lia. lia. }
  split; [|split; [apply reducible_ok; assumption|split; [|lia]]].
  - constructor; auto.
    intros i Hi. cbn [f_exp]. destruct (le_lt_dec 255 i) as [L|L].
    + replace (i mod 255)%nat with (i - 255)%nat by (rewrite (Nat.mod_eq i 255) by lia; replace (i / 255)%nat with 1%nat; [lia|]; apply (Nat.div_unique i 255 1 (i - 255)); lia).
      rewrite <- (proj2 (Ex (i - 255)%nat ltac:(lia))). f_equal. lia.
    + rewrite Nat.mod_small by exact L. apply Ex. lia.
  - intros b Hb. destruct (all_powers P a HP Ha Inj Nz b Hb) as [i [_ E]]. exists i.
    rewrite <- E. apply cong_sym, pw_cong; assumption.
Qed.

(** A generator of the residues has distinct non-zero powers 0..254. *)
Lemma generates_distinct P a : 256 <= P < 512 -> a < 256 -> generates P a ->
  (forall j k, (j < 255)%nat -> (k < 255)%nat -> pw P a j = pw P a k -> j = k) /\ (forall j, (j < 255)%nat -> pw P a j <> 0).
Proof.
  intros HP Ha G.
  assert (Cov : forall n, (forall k, In (pw P a k) (map (pw P a) (seq 0 n)) \/ pw P a k = 0) -> (255 <= n)%nat).
  { intros n H.
    assert (I : incl (map N.of_nat (seq 1 255)) (map (pw P a) (seq 0 n))).
    { intros x Hx. apply in_map_iff in Hx. destruct Hx as [i [<- Hi]]. apply in_seq in Hi.
      destruct (G (N.of_nat i) ltac:(lia)) as [k Hk]. apply pw_unique in Hk; [|exact HP|exact Ha|lia].
      destruct (H k) as [X|X]; [rewrite <- Hk; exact X|lia]. }
    apply NoDup_incl_length in I.
    - rewrite !map_length, !seq_length in I. exact I.
    - apply Injective_map_NoDup; [intros x y E; lia|apply seq_NoDup]. }
  assert (D : forall j k, (j < k < 255)%nat -> pw P a j <> pw P a k).
  { intros i j Hij E.
    assert (Per : forall k, (j <= k)%nat -> exists m, (m < k)%nat /\ pw P a k = pw P a m).
    { intros k Hk. exists (k - (j - i))%nat. split; [lia|].
      replace k with (j + (k - j))%nat at 1 by lia. replace (k - (j - i))%nat with (i + (k - j))%nat by lia.
      generalize (k - j)%nat. intros t. induction t as [|t IH]; [rewrite !Nat.add_0_r; auto|].
      rewrite !Nat.add_succ_r. cbn [pw]. rewrite IH. reflexivity. }
    assert (255 <= j)%nat; [|lia]. apply Cov. intros k. left.
    induction k as [k IH] using lt_wf_ind. destruct (le_lt_dec j k) as [L|L].
    - destruct (Per k L) as [m [Hm ->]]. apply IH. exact Hm.
    - apply in_map. apply in_seq. lia. }
  split.
  - intros j k Hj Hk E. destruct (lt_eq_lt_dec j k) as [[L|L]|L]; [|exact L|]; exfalso.
    + apply (D j k); [lia|exact E].
    + apply (D k j); [lia|auto].
  - intros j Hj E. assert (255 <= j)%nat; [|lia]. apply Cov. intros k.
    destruct (le_lt_dec j k) as [L|L]; [right|left; apply in_map, in_seq; lia].
    replace k with (j + (k - j))%nat by lia. generalize (k - j)%nat. intros t. induction t as [|t IH]; [rewrite Nat.add_0_r; exact E|].
    rewrite Nat.add_succ_r. cbn [pw]. rewrite IH. reflexivity.
Qed.

Lemma NewField_accepts poly alpha : (0 <= poly)%Z -> (0 <= alpha < 256)%Z ->
  irreducible8 (Z.to_N poly) -> generates (Z.to_N poly) (Z.to_N alpha) -> exists f, NewField poly alpha = Some f.
Proof.
  intros Hp Hal Irr Gen. assert (HP := proj1 Irr). set (P := Z.to_N poly) in *. set (a := Z.to_N alpha) in *.
  assert (Ha : a < 256) by (unfold a; lia).
  destruct (generates_distinct P a HP Ha Gen) as [Inj Nz].
  unfold NewField. destruct (Z.ltb_spec poly 256); [unfold P in HP; lia|]. rewrite Z.geb_leb.
  destruct (Z.leb_spec 512 poly); [unfold P in HP; lia|]. cbn [orb]. fold P a.
  rewrite (proj2 (reducible_ok P HP) Irr).
  destruct (Z.ltb_spec alpha 0); [lia|]. rewrite Z.geb_leb. destruct (Z.leb_spec 256 alpha); [lia|]. cbn [orb].
  change 1 with (pw P a 0) at 1.
  destruct (tables_total P a HP Ha 255 0 (repeat 0 510) (repeat 0 256)) as [exp [log [T [Ll [Lg _]]]]];
    [apply repeat_length|apply repeat_length|lia| |exact Inj|].
  { intros j Hj Hj0 E. apply Hj0. apply Inj; [lia|lia|exact E]. }
  rewrite T. pose proof T as T2. apply (tables_spec P a HP Ha) in T2; [|apply repeat_length|apply repeat_length|lia].
  destruct T2 as [Le [_ [Ex _]]].
  assert (LgU : forall i, (i < 255)%nat -> nth (N.to_nat (pw P a i)) (upd log 0 255) 0 = N.of_nat i).
  { intros i Hi. rewrite upd_other; [apply Lg; lia|]. pose proof (Nz i Hi). lia. }
  replace (logs_ok exp (upd log 0 255)) with true; [eauto|]. symmetry. unfold logs_ok. apply andb_true_iff. split; apply forallb_forall.
  - intros i Hi. apply in_seq in Hi. destruct (Ex i ltac:(lia)) as [-> ->]. rewrite LgU by lia. rewrite N.eqb_refl. reflexivity.
  - intros b Hb. apply in_seq in Hb. destruct (all_powers P a HP Ha Inj Nz (N.of_nat b) ltac:(lia)) as [i [Hi E]].
    replace b with (N.to_nat (pw P a i)) at 1 by lia. rewrite LgU by exact Hi. rewrite Nat2N.id, (proj1 (Ex i ltac:(lia))), E.
    apply N.eqb_refl.
Qed.

(** ** Operations of a good field *)
Section Good.
  Variables (f : Field) (P a : N).
  Hypothesis G : good f P a.
  Notation pw := (pw P a).
  Let HP := g_P f P a G.
  Let Ha := g_a f P a G.
  Let Inj := g_inj f P a G.
  Let Nz := g_nz f P a G.

  Lemma log_of b : 1 <= b < 256 -> exists i, (i < 255)%nat /\ b = pw i /\ nth (N.to_nat b) (f_log f) 0 = N.of_nat i.
  Proof.
    intros Hb. destruct (all_powers P a HP Ha Inj Nz b Hb) as [i [Hi E]]. exists i. split; [exact Hi|]. split; [auto|].
    rewrite <- E. apply (g_log f P a G). exact Hi.
  Qed.
  Lemma Exp_pw e : (0 <= e)%Z -> Exp f e = pw (Z.to_nat e).
  Proof.
    intros He. unfold Exp. destruct (Z.ltb_spec e 0); [lia|].
    pose proof (Z.mod_pos_bound e 255 ltac:(lia)).
    rewrite (g_exp f P a G) by lia. rewrite (Nat.mod_small (Z.to_nat (e mod 255))) by lia.
    rewrite Z2Nat.inj_mod by lia. change (Z.to_nat 255) with 255%nat. apply (pw_mod P a HP Ha Inj Nz).
  Qed.
  Lemma Mul_mul x y : x < 256 -> y < 256 -> Mul f x y = mul x y P.
  Proof.
    intros Hx Hy. unfold Mul. destruct (N.eqb_spec x 0) as [->|Nx]; [reflexivity|].
    destruct (N.eqb_spec y 0) as [->|Ny]; [rewrite (mul_comm P HP) by lia; reflexivity|]. cbn [orb].
    destruct (log_of x ltac:(lia)) as [i [Hi [Ex Lx]]]. destruct (log_of y ltac:(lia)) as [j [Hj [Ey Ly]]].
    rewrite Lx, Ly. replace (N.to_nat (N.of_nat i + N.of_nat j)) with (i + j)%nat by lia.
    rewrite (g_exp f P a G) by lia. rewrite (pw_mod P a HP Ha Inj Nz), pw_add by assumption. rewrite Ex, Ey. reflexivity.
  Qed.
  Lemma Inv_ok x : 1 <= x < 256 -> Inv f x < 256 /\ Mul f x (Inv f x) = 1.
  Proof.
    intros Hx. destruct (log_of x Hx) as [i [Hi [Ex Lx]]].
    assert (E : Inv f x = pw (255 - i)).
    { unfold Inv. destruct (N.eqb_spec x 0); [lia|]. rewrite Lx. replace (N.to_nat (255 - N.of_nat i)) with (255 - i)%nat by lia.
      rewrite (g_exp f P a G) by lia. apply (pw_mod P a HP Ha Inj Nz). }
    rewrite E. pose proof (pw_small P a HP Ha (255 - i)). split; [assumption|].
    rewrite Mul_mul by lia. rewrite Ex, <- (pw_add P a HP Ha).
    replace (i + (255 - i))%nat with 255%nat by lia. apply (pw_255 P a HP Ha Inj Nz).
  Qed.
  Lemma Log_pw i : (i < 255)%nat -> Log f (pw i) = Z.of_nat i.
  Proof.
    intros Hi. unfold Log. destruct (N.eqb_spec (pw i) 0) as [E|E]; [destruct (Nz i Hi E)|].
    rewrite (g_log f P a G) by exact Hi. lia.
  Qed.
  Lemma Mul_small x y : x < 256 -> y < 256 -> Mul f x y < 256.
  Proof. intros Hx Hy. rewrite Mul_mul by assumption. apply mul_ok; assumption. Qed.
  Lemma Mul_comm x y : x < 256 -> y < 256 -> Mul f x y = Mul f y x.
  Proof. intros. rewrite !Mul_mul by assumption. apply mul_comm; assumption. Qed.
  Lemma Mul_assoc x y z : x < 256 -> y < 256 -> z < 256 -> Mul f (Mul f x y) z = Mul f x (Mul f y z).
  Proof.
    intros. rewrite !Mul_mul; try assumption; try (apply mul_ok; assumption); try (apply Mul_small; assumption).
    apply mul_assoc; assumption.
  Qed.
  Lemma Mul_lxor_r x y z : x < 256 -> y < 256 -> z < 256 -> Mul f x (N.lxor y z) = N.lxor (Mul f x y) (Mul f x z).
  Proof.
    intros. rewrite !Mul_mul; try assumption; [|apply lxor_small; assumption]. apply mul_lxor_r; assumption.
  Qed.
  Lemma Mul_lxor_l x y z : x < 256 -> y < 256 -> z < 256 -> Mul f (N.lxor x y) z = N.lxor (Mul f x z) (Mul f y z).
  Proof.
    intros. rewrite Mul_comm by (try apply lxor_small; assumption). rewrite Mul_lxor_r by assumption.
    rewrite (Mul_comm z x), (Mul_comm z y) by assumption. reflexivity.
  Qed.
  Lemma Mul_1_l x : x < 256 -> Mul f 1 x = x.
  Proof. intros. rewrite Mul_mul by lia. reflexivity. Qed.
  Lemma Mul_0_l x : Mul f 0 x = 0. Proof. reflexivity. Qed.
  Lemma Mul_0_r x : Mul f x 0 = 0. Proof. unfold Mul. rewrite orb_true_r. reflexivity. Qed.
  Lemma Mul_eq_0 x y : x < 256 -> y < 256 -> Mul f x y = 0 -> x = 0 \/ y = 0.
  Proof.
    intros Hx Hy E. destruct (N.eq_dec x 0) as [|Nx]; [auto|]. right.
    destruct (Inv_ok x ltac:(lia)) as [Si Ei].
    rewrite <- (Mul_1_l y Hy), <- Ei, (Mul_comm x), Mul_assoc, E, Mul_0_r by assumption. reflexivity.
  Qed.
End Good.
