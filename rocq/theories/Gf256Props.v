(** * C13-C17: GF(256) and Reed-Solomon. *)
From Coq Require Import NArith ZArith List Bool Lia Arith.
From Verif Require Import Gf256Model Gf256Spec Gf2Poly Gf256Proofs RsAlgebra RsProofs.
Import ListNotations.
Open Scope N_scope.

(** C13: which fields are accepted. *)
Theorem C13_accepts_exactly poly alpha :
  (exists f, NewField poly alpha = Some f)
  <-> (0 <= poly)%Z /\ (0 <= alpha < 256)%Z /\ irreducible8 (Z.to_N poly) /\ generates (Z.to_N poly) (Z.to_N alpha).
Proof.
  split.
  - intros [f E]. apply NewField_good in E. destruct E as [_ [I [Gn [? ?]]]]. repeat split; try lia; try assumption; apply I.
  - intros [H1 [H2 [H3 H4]]]. apply NewField_accepts; assumption.
Qed.
Theorem C13_mul_is_product_mod_poly poly alpha f x y : NewField poly alpha = Some f -> x < 256 -> y < 256 ->
  Mul f x y < 256 /\ cong (Z.to_N poly) (Mul f x y) (clmul x y)
  /\ forall z, z < 256 -> cong (Z.to_N poly) z (clmul x y) -> z = Mul f x y.
Proof.
  intros E Hx Hy. apply NewField_good in E. destruct E as [G _]. pose proof (g_P _ _ _ G) as HP.
  rewrite (Mul_mul f _ _ G) by assumption. destruct (mul_ok _ HP x y Hy) as [B C]. split; [exact B|]. split; [exact C|].
  intros z Hz Cz. apply (small_unique _ HP); [exact Hz|exact B|]. eapply cong_trans; [exact Cz|]. apply cong_sym. exact C.
Qed.
Theorem C13_field_laws poly alpha f : NewField poly alpha = Some f ->
  forall x y z, x < 256 -> y < 256 -> z < 256 ->
  Add x y < 256 /\ Add x y = Add y x /\ Add (Add x y) z = Add x (Add y z) /\ Add x 0 = x /\ Add x x = 0
  /\ Mul f x y = Mul f y x /\ Mul f (Mul f x y) z = Mul f x (Mul f y z) /\ Mul f 1 x = x
  /\ Mul f x (Add y z) = Add (Mul f x y) (Mul f x z)
  /\ (x <> 0 -> Inv f x < 256 /\ Mul f x (Inv f x) = 1) /\ Inv f 0 = 0.
Proof.
  intros E x y z Hx Hy Hz. apply NewField_good in E. destruct E as [G _]. unfold Add.
  split; [apply lxor_small; assumption|]. split; [apply N.lxor_comm|]. split; [apply N.lxor_assoc|]. split; [apply N.lxor_0_r|].
  split; [apply N.lxor_nilpotent|]. split; [apply (Mul_comm f _ _ G); assumption|]. split; [apply (Mul_assoc f _ _ G); assumption|].
  split; [apply (Mul_1_l f _ _ G); assumption|]. split; [apply (Mul_lxor_r f _ _ G); assumption|]. split; [|reflexivity].
  intros Nx. apply (Inv_ok f _ _ G). lia.
Qed.

(** The QR field of coding/qr.go:13 is one of them. *)
Definition qr_field : Field := match NewField 0x11d 2 with Some f => f | None => {| f_log := []; f_exp := [] |} end.
Lemma qr_field_ok : NewField 0x11d 2 = Some qr_field.
Proof. vm_compute. reflexivity. Qed.
Example C13_nonvacuous : irreducible8 0x11d /\ generates 0x11d 2 /\ Mul qr_field 0x53 0xca = 0x8f /\ Mul qr_field 0x53 (Inv qr_field 0x53) = 1
  /\ NewField 0x11b 2 = None /\ NewField 0x101 2 = None /\ (exists f, NewField 0x11b 3 = Some f).
Proof.
  destruct (proj1 (C13_accepts_exactly 0x11d 2) (ex_intro _ _ qr_field_ok)) as [_ [_ [H1 H2]]].
  split; [exact H1|]. split; [exact H2|]. split; [vm_compute; reflexivity|]. split; [vm_compute; reflexivity|].
  split; [vm_compute; reflexivity|]. split; [vm_compute; reflexivity|].
  destruct (NewField 0x11b 3) as [f|] eqn:E; [eauto|]. exfalso. revert E. vm_compute. discriminate.
Qed.

(** C14 *)
Theorem C14_log_exp poly alpha f e : NewField poly alpha = Some f -> (0 <= e)%Z -> Log f (Exp f e) = (e mod 255)%Z.
Proof.
  intros E He. apply NewField_good in E. destruct E as [G _]. rewrite (Exp_pw f _ _ G) by exact He.
  rewrite <- (pw_mod _ _ (g_P _ _ _ G) (g_a _ _ _ G) (g_inj _ _ _ G) (g_nz _ _ _ G)).
  rewrite (Log_pw f _ _ G) by (apply Nat.mod_upper_bound; lia).
  rewrite <- (Z2Nat.id e) at 2 by exact He. rewrite Nat2Z.inj_mod. reflexivity.
Qed.
Theorem C14_exp_log poly alpha f x : NewField poly alpha = Some f -> 1 <= x < 256 ->
  (0 <= Log f x < 255)%Z /\ Exp f (Log f x) = x.
Proof.
  intros E Hx. apply NewField_good in E. destruct E as [G _]. destruct (log_of f _ _ G x Hx) as [i [Hi [-> _]]].
  rewrite (Log_pw f _ _ G) by exact Hi. split; [lia|]. rewrite (Exp_pw f _ _ G) by lia. rewrite Nat2Z.id. reflexivity.
Qed.
Theorem C14_exp_add poly alpha f i j : NewField poly alpha = Some f -> (0 <= i)%Z -> (0 <= j)%Z ->
  Exp f (i + j) = Mul f (Exp f i) (Exp f j).
Proof.
  intros E Hi Hj. apply NewField_good in E. destruct E as [G _]. pose proof (g_P _ _ _ G) as HP. pose proof (g_a _ _ _ G) as Ha.
  rewrite !(Exp_pw f _ _ G) by lia. rewrite (Mul_mul f _ _ G) by (apply pw_small; assumption).
  rewrite Z2Nat.inj_add by lia. apply pw_add; assumption.
Qed.
(** Exp e is alpha^e reduced modulo the polynomial. *)
Theorem C14_exp_is_power poly alpha f e : NewField poly alpha = Some f -> (0 <= e)%Z ->
  1 <= Exp f e < 256 /\ cong (Z.to_N poly) (Exp f e) (clpow (Z.to_N alpha) (Z.to_nat e)).
Proof.
  intros E He. apply NewField_good in E. destruct E as [G _]. pose proof (g_P _ _ _ G) as HP. pose proof (g_a _ _ _ G) as Ha.
  rewrite (Exp_pw f _ _ G) by exact He. split; [|apply pw_cong; assumption].
  pose proof (pw_small _ _ HP Ha (Z.to_nat e)).
  rewrite <- (pw_mod _ _ HP Ha (g_inj _ _ _ G) (g_nz _ _ _ G)) in *.
  pose proof (g_nz _ _ _ G (Z.to_nat e mod 255)%nat ltac:(apply Nat.mod_upper_bound; lia)). lia.
Qed.
Theorem C14_special_cases f : (forall e, (e < 0)%Z -> Exp f e = 0) /\ Log f 0 = (-1)%Z /\ Inv f 0 = 0.
Proof. split; [|auto]. intros e He. unfold Exp. destruct (Z.ltb_spec e 0); [reflexivity|lia]. Qed.
Example C14_nonvacuous : Exp qr_field 1000 = 235 /\ Log qr_field 235 = (1000 mod 255)%Z.
Proof. vm_compute. auto. Qed.

(** ** Encoders: NewRSEncoder followed by any sequence of ECC calls that did not panic. *)
Inductive encoder (f : Field) (c : nat) : RSEncoder -> Prop :=
  | enc_new : encoder f c (NewRSEncoder f c)
  | enc_used rs data check check' rs' : encoder f c rs -> ECC rs data check = Some (check', rs') -> encoder f c rs'.
Lemma encoder_ok poly alpha f c rs : NewField poly alpha = Some f -> encoder f c rs -> enc_ok f c rs.
Proof.
  intros E H. apply NewField_good in E. destruct E as [G _]. induction H as [|rs data check check' rs' H IH E].
  - repeat split.
  - pose proof (ECC_spec f _ _ G c rs data check IH) as S'. destruct (length check <? c)%nat; [congruence|].
    destruct S' as [rs2 [k [O E2]]]. rewrite E in E2. inversion E2; subst. exact O.
Qed.
Lemma ECC_result poly alpha f c rs data check : NewField poly alpha = Some f -> encoder f c rs -> (c <= length check)%nat ->
  exists check' rs', ECC rs data check = Some (check', rs') /\ length check' = length check /\ firstn c check' = rem f c data.
Proof.
  intros E H L. pose proof (encoder_ok _ _ _ _ _ E H) as O. apply NewField_good in E. destruct E as [G _].
  pose proof (ECC_spec f _ _ G c rs data check O) as S'. destruct (Nat.ltb_spec (length check) c); [lia|].
  destruct S' as [rs' [k [_ E2]]]. eexists _, rs'. split; [exact E2|]. pose proof (rem_length f _ _ G c data) as RL. destruct (Nat.eqb_spec c 0) as [->|Nc].
  - unfold copy. rewrite firstn_nil. split; [reflexivity|]. destruct (rem f 0 data); [reflexivity|discriminate].
  - unfold copy. split.
    + rewrite app_length, firstn_length, skipn_length. lia.
    + rewrite firstn_app, firstn_firstn. replace (Nat.min c (length check)) with c by lia.
      rewrite firstn_length, app_length, RL, repeat_length. replace (c - Nat.min (length check) (c + k))%nat with 0%nat by lia.
      cbn [firstn]. rewrite app_nil_r, firstn_app, RL, Nat.sub_diag. cbn [firstn]. rewrite app_nil_r.
      rewrite <- RL at 1. apply firstn_all.
Qed.

(** C15 *)
Theorem C15_codeword poly alpha f c rs data check :
  NewField poly alpha = Some f -> encoder f c rs -> Forall byteb data -> (c <= length check)%nat ->
  exists check' rs', ECC rs data check = Some (check', rs') /\ length check' = length check /\ Forall byteb (firstn c check')
    /\ (forall j, (j < c)%nat -> horner (Mul f) (data ++ firstn c check') (Exp f (Z.of_nat j)) = 0)
    /\ (exists quot, length quot = length data /\ Forall byteb quot
         /\ data ++ firstn c check' = pmul (Mul f) quot (from_roots (Mul f) (map (fun i => Exp f (Z.of_nat i)) (seq 0 c)))).
Proof.
  intros E H B L. destruct (ECC_result _ _ _ _ _ data check E H L) as [check' [rs' [E1 [E2 E3]]]].
  exists check', rs'. split; [exact E1|]. split; [exact E2|]. rewrite E3. apply NewField_good in E. destruct E as [G _].
  split; [apply (rem_bytes f _ _ G); exact B|]. split; [intros j Hj; apply (rem_codeword f _ _ G); assumption|].
  destruct (rem_quotient f _ _ G c data B) as [q [Lq [Bq Q]]]. exists q. split; [exact Lq|]. split; [exact Bq|].
  rewrite Q, (gen_roots f _ _ G). reflexivity.
Qed.
(** The generator polynomial's coefficients are monic and it has exactly the roots alpha^0..alpha^(c-1). *)
Theorem C15_generator_roots poly alpha f c r : NewField poly alpha = Some f -> r < 256 ->
  (horner (Mul f) (from_roots (Mul f) (map (fun i => Exp f (Z.of_nat i)) (seq 0 c))) r = 0
   <-> exists j, (j < c)%nat /\ r = Exp f (Z.of_nat j)).
Proof.
  intros E Hr. apply NewField_good in E. destruct E as [G _]. fold (roots f 0 c).
  rewrite <- (gen_roots f _ _ G). destruct (gen_shape f _ _ G c) as [g [Eg [_ [Bg V]]]]. rewrite Eg.
  assert (B1 : Forall byteb (1 :: g)) by (constructor; [unfold byteb; lia|exact Bg]).
  transitivity (ev GF g0 g1 gadd (gmul f) (g1 :: map inj g) (inj r) = g0).
  - change (g1 :: map inj g) with (map inj (1 :: g)). rewrite <- (horner_ev f _ _ G) by assumption. split.
    + intros ->. reflexivity.
    + intros X. apply inj_eq; [apply (horner_small f _ _ G); assumption|lia|exact X].
  - rewrite V, (prod_zero GF g0 g1 gadd (gmul f) (GRT f _ _ G) (GDom f _ _ G) GOne). rewrite in_map_iff. split.
    + intros [x [X I]]. unfold roots in I. apply in_map_iff in I. destruct I as [j [<- I]]. apply in_seq in I. exists j. split; [lia|].
      apply inj_eq; [exact Hr|apply (Exp_small f _ _ G)|auto].
    + intros [j [Hj ->]]. eexists. split; [reflexivity|]. unfold roots. apply in_map_iff. exists j. split; [reflexivity|apply in_seq; lia].
Qed.
Example C15_nonvacuous :
  let data := [0x10; 0x20; 0x0c; 0x56; 0x61; 0x80; 0xec; 0x11; 0xec; 0x11; 0xec; 0x11; 0xec; 0x11; 0xec; 0x11] in
  match ECC (NewRSEncoder qr_field 10) data (repeat 0 10) with
  | Some (check, _) => check = [0xa5; 0x24; 0xd4; 0xc1; 0xed; 0x36; 0xc7; 0x87; 0x2c; 0x55]
  | None => False
  end.
Proof. vm_compute. reflexivity. Qed.

(** C16 *)
Lemma hamming_sym x : forall y, hamming x y = hamming y x.
Proof. induction x as [|a x IH]; intros [|b y]; cbn; try reflexivity. rewrite IH, (N.eqb_sym a b). reflexivity. Qed.
Lemma hamming_triangle x : forall y z, length x = length y -> length y = length z -> (hamming x z <= hamming x y + hamming y z)%nat.
Proof.
  induction x as [|a x IH]; intros [|b y] [|c z] L1 L2; cbn in *; try lia.
  specialize (IH y z ltac:(lia) ltac:(lia)).
  destruct (N.eqb_spec a b), (N.eqb_spec b c), (N.eqb_spec a c); subst; try congruence; lia.
Qed.
Theorem C16_distance poly alpha f c rs1 rs2 data1 data2 check1 check2 check1' check2' rs1' rs2' :
  NewField poly alpha = Some f -> encoder f c rs1 -> encoder f c rs2 ->
  Forall byteb data1 -> Forall byteb data2 -> length data1 = length data2 -> data1 <> data2 ->
  (length data1 + c <= 255)%nat ->
  ECC rs1 data1 check1 = Some (check1', rs1') -> ECC rs2 data2 check2 = Some (check2', rs2') ->
  (c + 1 <= hamming (data1 ++ firstn c check1') (data2 ++ firstn c check2'))%nat.
Proof.
  intros E H1 H2 B1 B2 L Ne LL E1 E2.
  assert (C1 : (c <= length check1)%nat).
  { pose proof (encoder_ok _ _ _ _ _ E H1) as O. pose proof E as E'. apply NewField_good in E'. destruct E' as [G _].
    pose proof (ECC_spec f _ _ G c rs1 data1 check1 O) as S'. destruct (Nat.ltb_spec (length check1) c); [congruence|lia]. }
  assert (C2 : (c <= length check2)%nat).
  { pose proof (encoder_ok _ _ _ _ _ E H2) as O. pose proof E as E'. apply NewField_good in E'. destruct E' as [G _].
    pose proof (ECC_spec f _ _ G c rs2 data2 check2 O) as S'. destruct (Nat.ltb_spec (length check2) c); [congruence|lia]. }
  destruct (ECC_result _ _ _ _ _ data1 check1 E H1 C1) as [? [? [X1 [_ F1]]]]. rewrite E1 in X1. inversion X1; subst.
  destruct (ECC_result _ _ _ _ _ data2 check2 E H2 C2) as [? [? [X2 [_ F2]]]]. rewrite E2 in X2. inversion X2; subst.
  rewrite F1, F2. apply NewField_good in E. destruct E as [G _].
  pose proof (codewords_far f _ _ G c (data1 ++ rem f c data1) (data2 ++ rem f c data2)) as D.
  rewrite Nat.add_1_r. apply D.
  - rewrite !app_length, !(rem_length f _ _ G). lia.
  - rewrite app_length, (rem_length f _ _ G). exact LL.
  - apply Forall_app. split; [exact B1|apply (rem_bytes f _ _ G); exact B1].
  - apply Forall_app. split; [exact B2|apply (rem_bytes f _ _ G); exact B2].
  - intros j Hj. apply (rem_codeword f _ _ G); assumption.
  - intros j Hj. apply (rem_codeword f _ _ G); assumption.
  - intros X. apply Ne. apply (f_equal (firstn (length data1))) in X.
    rewrite firstn_app, Nat.sub_diag, firstn_all in X. rewrite L in X at 1. rewrite firstn_app, Nat.sub_diag, firstn_all in X.
    cbn [firstn] in X. rewrite !app_nil_r in X. exact X.
Qed.
(** Any word within c/2 errors of a codeword is further from every other codeword. *)
Theorem C16_unique_nearest poly alpha f c rs1 rs2 data1 data2 check1 check2 check1' check2' rs1' rs2' received t :
  NewField poly alpha = Some f -> encoder f c rs1 -> encoder f c rs2 ->
  Forall byteb data1 -> Forall byteb data2 -> length data1 = length data2 -> data1 <> data2 ->
  (length data1 + c <= 255)%nat ->
  ECC rs1 data1 check1 = Some (check1', rs1') -> ECC rs2 data2 check2 = Some (check2', rs2') ->
  length received = (length data1 + c)%nat -> (2 * t <= c)%nat ->
  (hamming received (data1 ++ firstn c check1') <= t)%nat ->
  (t < hamming received (data2 ++ firstn c check2'))%nat.
Proof.
  intros E H1 H2 B1 B2 L Ne LL E1 E2 Lr Ht Hd.
  pose proof (C16_distance _ _ _ _ _ _ _ _ _ _ _ _ _ _ E H1 H2 B1 B2 L Ne LL E1 E2) as D.
  assert (Len : forall rs data check check' rs', encoder f c rs -> ECC rs data check = Some (check', rs') -> length (firstn c check') = c).
  { intros rs data check check' rs' H X. assert (C1 : (c <= length check)%nat).
    { pose proof (encoder_ok _ _ _ _ _ E H) as O. pose proof E as E'. apply NewField_good in E'. destruct E' as [G _].
      pose proof (ECC_spec f _ _ G c rs data check O) as S'. destruct (Nat.ltb_spec (length check) c); [congruence|lia]. }
    destruct (ECC_result _ _ _ _ _ data check E H C1) as [? [? [X1 [_ F1]]]]. rewrite X in X1. inversion X1; subst. rewrite F1. pose proof E as E'. apply NewField_good in E'. destruct E' as [G' _]. apply (rem_length f _ _ G'). }
  pose proof (Len _ _ _ _ _ H1 E1) as L1. pose proof (Len _ _ _ _ _ H2 E2) as L2.
  pose proof (hamming_triangle (data1 ++ firstn c check1') received (data2 ++ firstn c check2')) as T.
  rewrite !app_length, L1, L2 in T. specialize (T ltac:(lia) ltac:(lia)). rewrite (hamming_sym _ received) in T. lia.
Qed.
Example C16_nonvacuous :
  match ECC (NewRSEncoder qr_field 3) [1; 2] [0; 0; 0], ECC (NewRSEncoder qr_field 3) [1; 3] [0; 0; 0] with
  | Some (k1, _), Some (k2, _) => hamming ([1; 2] ++ k1) ([1; 3] ++ k2) = 4%nat
  | _, _ => False
  end.
Proof. vm_compute. reflexivity. Qed.

(** C17 *)
Theorem C17_history_independent poly alpha f c rs1 rs2 data check1 check2 check1' check2' rs1' rs2' :
  NewField poly alpha = Some f -> encoder f c rs1 -> encoder f c rs2 ->
  ECC rs1 data check1 = Some (check1', rs1') -> ECC rs2 data check2 = Some (check2', rs2') ->
  firstn c check1' = firstn c check2'.
Proof.
  intros E H1 H2 E1 E2.
  assert (F : forall rs check check' rs', encoder f c rs -> ECC rs data check = Some (check', rs') -> firstn c check' = rem f c data).
  { intros rs check check' rs' H X. assert (C1 : (c <= length check)%nat).
    { pose proof (encoder_ok _ _ _ _ _ E H) as O. pose proof E as E'. apply NewField_good in E'. destruct E' as [G _].
      pose proof (ECC_spec f _ _ G c rs data check O) as S'. destruct (Nat.ltb_spec (length check) c); [congruence|lia]. }
    destruct (ECC_result _ _ _ _ _ data check E H C1) as [? [? [X1 [_ F1]]]]. rewrite X in X1. inversion X1; subst. exact F1. }
  rewrite (F _ _ _ _ H1 E1), (F _ _ _ _ H2 E2). reflexivity.
Qed.
Theorem C17_panics_iff_short poly alpha f c rs data check : NewField poly alpha = Some f -> encoder f c rs ->
  (ECC rs data check = None <-> (length check < c)%nat).
Proof.
  intros E H. pose proof (encoder_ok _ _ _ _ _ E H) as O. apply NewField_good in E. destruct E as [G _].
  pose proof (ECC_spec f _ _ G c rs data check O) as S'. destruct (Nat.ltb_spec (length check) c).
  - tauto.
  - destruct S' as [? [? [_ X]]]. rewrite X. split; [discriminate|lia].
Qed.
(** What happens to check[c:]: kept except for a run of zeros written at its front. *)
Theorem C17_rest_of_check poly alpha f c rs data check check' rs' : NewField poly alpha = Some f -> encoder f c rs -> (1 <= c)%nat ->
  ECC rs data check = Some (check', rs') ->
  exists k, skipn c check' = repeat 0 k ++ skipn k (skipn c check) /\ (c + k <= length check)%nat.
Proof.
  intros E H Hc X. pose proof (encoder_ok _ _ _ _ _ E H) as O. apply NewField_good in E. destruct E as [G _].
  pose proof (ECC_spec f _ _ G c rs data check O) as S'. destruct (Nat.ltb_spec (length check) c); [congruence|].
  destruct S' as [rs2 [k [_ X2]]]. rewrite X in X2. inversion X2; subst. destruct (Nat.eqb_spec c 0); [lia|].
  pose proof (rem_length f _ _ G c data) as RL. exists (Nat.min k (length check - c)). split; [|lia]. unfold copy.
  assert (FN : firstn (length check) (rem f c data ++ repeat 0 k) = rem f c data ++ repeat 0 (Nat.min k (length check - c))).
  { rewrite firstn_app, RL. rewrite firstn_all2 by lia. f_equal. clear. revert k. induction (length check - c)%nat as [|m IH]; intros [|k]; cbn; try reflexivity.
    rewrite IH. reflexivity. }
  rewrite FN, <- app_assoc, skipn_app, RL. rewrite skipn_all2 by lia. rewrite Nat.sub_diag. cbn [app skipn]. f_equal.
  assert (SS : forall x y (l : list N), skipn x (skipn y l) = skipn (y + x) l).
  { clear. intros x y. induction y as [|y IH]; intros l; [reflexivity|]. destruct l; [rewrite !skipn_nil; reflexivity|]. cbn. apply IH. }
  rewrite SS, app_length, RL, repeat_length. destruct (Nat.le_gt_cases k (length check - c)).
  - f_equal. lia.
  - rewrite !skipn_all2 by lia. reflexivity.
Qed.
(** A reused encoder does overwrite check[c:]. *)
Example C17_nonvacuous : exists rs, encoder qr_field 2 rs /\
  (exists rs', ECC rs [7] [9; 9; 9; 9] = Some ([9; 14; 0; 0], rs')) /\ (exists rs', ECC (NewRSEncoder qr_field 2) [7] [9; 9; 9; 9] = Some ([9; 14; 9; 9], rs')).
Proof.
  destruct (ECC (NewRSEncoder qr_field 2) [1; 2; 3; 4; 5] [0; 0]) as [[k rs]|] eqn:E; [|revert E; vm_compute; discriminate].
  exists rs. split; [eapply enc_used; [apply enc_new|exact E]|]. revert E. vm_compute. intros E. inversion E. split; eexists; reflexivity.
Qed.

Print Assumptions C13_accepts_exactly.
Print Assumptions C13_mul_is_product_mod_poly.
Print Assumptions C13_field_laws.
Print Assumptions C14_log_exp.
Print Assumptions C14_exp_log.
Print Assumptions C14_exp_add.
Print Assumptions C14_exp_is_power.
Print Assumptions C15_codeword.
Print Assumptions C15_generator_roots.
Print Assumptions C16_distance.
Print Assumptions C16_unique_nearest.
Print Assumptions C17_history_independent.
Print Assumptions C17_panics_iff_short.
Print Assumptions C17_rest_of_check.
