(** * Padding and check bytes. *)
From Coq Require Import String.
From Coq Require Import NArith ZArith Arith List Bool Lia.
From Verif Require Import Utf8 Gf256Model Gf256Spec Gf256Proofs RsProofs Gf256Props QrVtab QrModel QrSpec QrBits.
Import ListNotations.
Open Scope nat_scope.

(** ** Facts checked for the 160 combinations of version and level *)
Definition all_vl (p : nat -> nat -> bool) : bool := forallb (fun v => forallb (p v) (seq 0 4)) (seq 1 40).
Lemma all_vl_spec p : all_vl p = true -> forall v l, 1 <= v <= 40 -> l <= 3 -> p v l = true.
Proof.
  unfold all_vl. rewrite forallb_forall. intros H v l Hv Hl. specialize (H v). rewrite in_seq, forallb_forall in H.
  apply H; [lia|]. apply in_seq. lia.
Qed.
Lemma sizes v l : 1 <= v <= 40 -> l <= 3 ->
  1 <= nblock v l /\ 1 <= ncheck v l /\ nblock v l * ncheck v l < vbytes (vt v) /\ 1 <= DataBytes v l / nblock v l
  /\ S (DataBytes v l / nblock v l) + ncheck v l <= 255.
Proof.
  intros Hv Hl.
  pose proof (all_vl_spec (fun v l => (1 <=? nblock v l) && (1 <=? ncheck v l) && (nblock v l * ncheck v l <? vbytes (vt v))
    && (1 <=? DataBytes v l / nblock v l) && (S (DataBytes v l / nblock v l) + ncheck v l <=? 255)) ltac:(vm_compute; reflexivity) v l Hv Hl) as H.
  cbv beta in H. rewrite !andb_true_iff, !Nat.leb_le, Nat.ltb_lt in H. tauto.
Qed.

(** ** Pad *)
Local Opaque Write.
Fixpoint pad_cw (n : nat) (ec : bool) : list N := match n with O => [] | S m => (if ec then 0xec else 0x11)%N :: pad_cw m (negb ec) end.
Lemma pad_cw_spec n : forall i, pad_cw n (Nat.even i) = map (fun i => if Nat.even i then 0xec else 0x11)%N (seq i n).
Proof.
  induction n as [|n IH]; intros i; cbn [pad_cw seq map]; [reflexivity|]. f_equal. rewrite <- IH. f_equal.
  rewrite Nat.even_succ, <- Nat.negb_even. reflexivity.
Qed.
Lemma pad_loop_S n ec b : pad_loop b ec (S n) = pad_loop (Write b (if ec then 0xec else 0x11)%N 8) (negb ec) n.
Proof. reflexivity. Qed.
Lemma flat_pad_S n ec : flat (pad_cw (S n) ec) = bits_of 8 (if ec then 0xec else 0x11)%N ++ flat (pad_cw n (negb ec)).
Proof. reflexivity. Qed.
Lemma pad_loop_repr n : forall ec b l, repr b l -> repr (pad_loop b ec n) (l ++ flat (pad_cw n ec)).
Proof.
  induction n as [|n IH]; intros ec b l R; [cbn [pad_loop pad_cw flat_map]; rewrite app_nil_r; exact R|].
  rewrite pad_loop_S, flat_pad_S. rewrite app_assoc. apply IH. apply Write_repr; [exact R|]. change (2 ^ N.of_nat 8)%N with 256%N. destruct ec; lia.
Qed.
Lemma write0_repr b l k : repr b l -> repr (Write b 0 k) (l ++ repeat false k).
Proof. intros R. rewrite <- bits_of_0. apply Write_repr; [exact R|]. apply N.neq_0_lt_0. apply N.pow_nonzero. lia. Qed.
Lemma neg7_align a : (a + neg7 a) mod 8 = 0.
Proof. destruct (Nat.eq_dec (a mod 8) 0) as [E|E]; [rewrite neg7_zero by exact E; rewrite Nat.add_0_r; exact E|apply neg7_pos; exact E]. Qed.
Lemma Pad_repr b l nd : repr b l -> length l < 8 * nd -> repr (Pad b (nd * 8 - nbit b)) (padded nd l).
Proof.
  intros R L. pose proof R as [Ln _]. rewrite <- Ln. unfold Pad, padded.
  destruct (Nat.leb_spec (nd * 8 - length l) 4) as [H|H].
  - set (t := firstn (8 * nd) (l ++ repeat false 4)).
    assert (Et : t = l ++ repeat false (nd * 8 - length l)).
    { unfold t. rewrite firstn_app. rewrite firstn_all2 by lia. f_equal. rewrite (Nat.mul_comm 8 nd). clear -H. set (n := nd * 8 - length l) in *. clearbody n.
      do 5 (destruct n as [|n]; [reflexivity|]). lia. }
    assert (Lt : length t = nd * 8) by (rewrite Et, app_length, repeat_length; lia).
    rewrite Lt, Nat.mod_mul, Nat.sub_0_r, Nat.mod_same by lia. cbn [repeat]. rewrite app_nil_r, Lt, Nat.div_mul, Nat.sub_diag by lia.
    unfold pad_codewords. cbn [seq map flat_map]. rewrite app_nil_r, Et. apply write0_repr. exact R.
  - rewrite (firstn_all2 (n := 8 * nd)) by (rewrite app_length, repeat_length; lia).
    rewrite Write_nbit, <- Ln. rewrite app_length, repeat_length. fold (neg7 (length l + 4)).
    set (z := neg7 (length l + 4)).
    assert (A : (length l + 4 + z) mod 8 = 0) by apply neg7_align.
    assert (Lz : z < 8) by apply neg7_lt.
    pose proof (pad_loop_repr ((nd * 8 - length l - 4 - z) / 8) true _ _ (write0_repr _ _ z (write0_repr _ _ 4 R))) as P.
    rewrite (pad_cw_spec _ 0) in P. fold (pad_codewords ((nd * 8 - length l - 4 - z) / 8)) in P.
    replace (nd - length ((l ++ repeat false 4) ++ repeat false z) / 8) with ((nd * 8 - length l - 4 - z) / 8); [exact P|].
    rewrite !app_length, !repeat_length. apply Nat.div_exact in A; [|lia].
    replace (nd * 8 - length l - 4 - z) with ((nd - (length l + 4 + z) / 8) * 8) by lia. apply Nat.div_mul. lia.
Qed.
Lemma padded_full nd l : length l = 8 * nd -> padded nd l = l.
Proof.
  intros L. unfold padded. rewrite <- L, firstn_app, firstn_all, Nat.sub_diag. cbn [firstn]. rewrite app_nil_r.
  assert (M : length l mod 8 = 0) by (rewrite L, Nat.mul_comm; apply Nat.mod_mul; lia).
  rewrite M, Nat.sub_0_r, Nat.mod_same by lia. cbn [repeat]. rewrite app_nil_r, L, Nat.mul_comm, Nat.div_mul, Nat.sub_diag by lia. cbn. apply app_nil_r.
Qed.
Lemma padded_length nd l : length l <= 8 * nd -> length (padded nd l) = 8 * nd.
Proof.
  intros L. destruct (Nat.eq_dec (length l) (8 * nd)) as [E|E]; [rewrite padded_full; assumption|].
  unfold padded. set (t := firstn (8 * nd) (l ++ repeat false 4)).
  assert (Lt : length t = Nat.min (8 * nd) (length l + 4)) by (unfold t; rewrite firstn_length, app_length, repeat_length; reflexivity).
  fold (neg7 (length t)). pose proof (neg7_align (length t)) as A. pose proof (neg7_lt (length t)) as B. apply Nat.div_exact in A; [|lia].
  rewrite !app_length, !repeat_length. set (a := length t + neg7 (length t)) in *.
  assert (F : forall bs, length (flat bs) = 8 * length bs).
  { induction bs as [|x bs IH]; [reflexivity|]. cbn [flat_map]. rewrite app_length, IH, bits_of_length. cbn [length]. lia. }
  rewrite F. unfold pad_codewords. rewrite map_length, seq_length.
  assert (a <= 8 * nd) by (unfold a in *; lia). lia.
Qed.
(** The bits survive at the front, followed by nothing or a terminator. *)
Lemma padded_ends nd l : length l <= 8 * nd -> exists rest, padded nd l = l ++ rest /\ ends rest.
Proof.
  intros L. destruct (Nat.le_gt_cases (8 * nd) (length l + 3)) as [H|H].
  - pose proof (padded_length nd l L) as PL.
    assert (X : exists rest, padded nd l = l ++ rest).
    { unfold padded. rewrite (firstn_app (8 * nd)), (firstn_all2 l) by lia. rewrite <- !app_assoc. eexists. reflexivity. }
    destruct X as [rest X]. exists rest. split; [exact X|]. left. rewrite X, app_length in PL. lia.
  - unfold padded. rewrite (firstn_all2 (n := 8 * nd)) by (rewrite app_length, repeat_length; lia).
    rewrite <- !app_assoc. eexists. split; [reflexivity|]. right. eexists. reflexivity.
Qed.

(** ** Check bytes *)
Lemma flat_length bs : length (flat bs) = 8 * length bs.
Proof. induction bs as [|x bs IH]; [reflexivity|]. cbn [flat_map]. rewrite app_length, IH, bits_of_length. cbn [length]. lia. Qed.
Definition lens_from (nb extra nde i todo : nat) : list nat := map (fun j => if nb - extra <=? j then S nde else nde) (seq i todo).
Lemma QField_ok : NewField 0x11d 2 = Some QField. Proof. exact qr_field_ok. Qed.
Lemma check_loop_ok nb extra nde c todo : forall i chk rs dat b,
  encoder QField c rs -> length chk = c -> list_sum (lens_from nb extra nde i todo) <= length dat -> nbit b mod 8 = 0 ->
  check_loop todo i nb extra (if i <=? nb - extra then nde else S nde) chk rs dat b
  = Some {| bb := bb b ++ flat_map (rem QField c) (chunks (lens_from nb extra nde i todo) dat);
            nbit := nbit b + 8 * (c * todo) |}.
Proof.
  pose proof (NewField_good _ _ _ QField_ok) as [G _].
  induction todo as [|t IH]; intros i chk rs dat b He Lc Ld Hb; cbn [check_loop].
  - cbn. rewrite app_nil_r, Nat.mul_0_r, Nat.add_0_r. destruct b; reflexivity.
  - assert (EL : lens_from nb extra nde i (S t) = (if nb - extra <=? i then S nde else nde) :: lens_from nb extra nde (S i) t) by reflexivity.
    rewrite EL in *. cbn [chunks flat_map].
    set (n := if nb - extra <=? i then S nde else nde) in *.
    assert (LS : list_sum (n :: lens_from nb extra nde (S i) t) = n + list_sum (lens_from nb extra nde (S i) t)) by reflexivity.
    rewrite LS in Ld. clear EL LS.
    replace (if i =? nb - extra then S (if i <=? nb - extra then nde else S nde) else if i <=? nb - extra then nde else S nde) with n.
    2:{ unfold n. destruct (Nat.eqb_spec i (nb - extra)), (Nat.leb_spec (nb - extra) i), (Nat.leb_spec i (nb - extra)); try lia; reflexivity. }
    destruct (Nat.ltb_spec (length dat) n); [lia|].
    destruct (ECC_result _ _ _ _ _ (firstn n dat) chk QField_ok He ltac:(lia)) as [chk' [rs' [E1 [E2 E3]]]]. rewrite E1.
    unfold Append. rewrite Hb. cbn [Nat.eqb].
    replace n with (if S i <=? nb - extra then nde else S nde) at 1.
    2:{ unfold n. destruct (Nat.leb_spec (nb - extra) i), (Nat.leb_spec (S i) (nb - extra)); try lia; reflexivity. }
    rewrite IH.
    + cbn [bb nbit]. rewrite <- app_assoc. rewrite <- E3. rewrite (firstn_all2 chk') by lia. f_equal. f_equal. rewrite E2, Lc. lia.
    + eapply enc_used; eassumption.
    + lia.
    + rewrite skipn_length. lia.
    + cbn [nbit]. rewrite E2, Nat.mul_comm, Nat.mod_add by lia. exact Hb.
Qed.
Lemma lens_from_spec nb extra nde : extra <= nb -> lens_from nb extra nde 0 nb = repeat nde (nb - extra) ++ repeat (S nde) extra.
Proof.
  intros H. unfold lens_from. replace (seq 0 nb) with (seq 0 ((nb - extra) + extra)) by (f_equal; lia). rewrite seq_app, map_app. f_equal.
  - transitivity (map (fun _ => nde) (seq 0 (nb - extra))).
    + apply map_ext_in. intros a Ha. apply in_seq in Ha. destruct (Nat.leb_spec (nb - extra) a); [lia|reflexivity].
    + generalize 0. induction (nb - extra) as [|m IH]; intros s; cbn; [reflexivity|]. rewrite IH. reflexivity.
  - transitivity (map (fun _ => S nde) (seq (0 + (nb - extra)) extra)).
    + apply map_ext_in. intros a Ha. apply in_seq in Ha. destruct (Nat.leb_spec (nb - extra) a); [reflexivity|lia].
    + generalize (0 + (nb - extra)). induction extra as [|m IH]; intros s; cbn; [reflexivity|]. rewrite IH by lia. reflexivity.
Qed.
Lemma list_sum_repeat x n : list_sum (repeat x n) = n * x.
Proof. induction n as [|n IH]; cbn; [reflexivity|]. unfold list_sum in IH. lia. Qed.
Definition code_lens (v l : nat) : list nat :=
  repeat (DataBytes v l / nblock v l) (nblock v l - DataBytes v l mod nblock v l) ++ repeat (S (DataBytes v l / nblock v l)) (DataBytes v l mod nblock v l).
Lemma code_lens_sum v l : 1 <= v <= 40 -> l <= 3 -> list_sum (code_lens v l) = DataBytes v l /\ length (code_lens v l) = nblock v l.
Proof.
  intros Hv Hl. destruct (sizes v l Hv Hl) as [H1 _]. unfold code_lens. rewrite list_sum_app, !list_sum_repeat, app_length, !repeat_length.
  pose proof (Nat.div_mod (DataBytes v l) (nblock v l) ltac:(lia)). pose proof (Nat.mod_upper_bound (DataBytes v l) (nblock v l) ltac:(lia)).
  split; [|lia]. set (q := DataBytes v l / nblock v l) in *. set (r := DataBytes v l mod nblock v l) in *.
  rewrite Nat.mul_sub_distr_r, Nat.mul_succ_r. assert (r * q <= nblock v l * q) by (apply Nat.mul_le_mono_r; lia). lia.
Qed.
Theorem AddCheckBytes_ok b l v lv : 1 <= v <= 40 -> lv <= 3 -> repr b l -> length l <= 8 * DataBytes v lv ->
  exists dat b2, AddCheckBytes b v lv = Some b2 /\ Bytes b2 = Some (dat ++ flat_map (rem QField (ncheck v lv)) (chunks (code_lens v lv) dat))
    /\ flat dat = padded (DataBytes v lv) l /\ Forall byteb dat /\ length dat = DataBytes v lv.
Proof.
  intros Hv Hl R L. destruct (sizes v lv Hv Hl) as [N1 [C1 [T _]]]. destruct (code_lens_sum v lv Hv Hl) as [Su Le].
  pose proof (NewField_good _ _ _ QField_ok) as [G _].
  unfold AddCheckBytes. set (nd := DataBytes v lv) in *.
  set (b1 := if nbit b <? nd * 8 then Pad b (nd * 8 - nbit b) else b).
  assert (R1 : repr b1 (padded nd l)).
  { unfold b1. destruct (Nat.ltb_spec (nbit b) (nd * 8)) as [H|H].
    - apply Pad_repr; [exact R|]. rewrite (proj1 R). lia.
    - rewrite padded_full; [exact R|]. pose proof (proj1 R). lia. }
  assert (NB : nbit b1 = nd * 8) by (rewrite <- (proj1 R1), padded_length by exact L; lia).
  rewrite NB, Nat.eqb_refl. cbn [negb]. unfold Bytes at 1. rewrite NB, Nat.mod_mul by lia. cbn [Nat.eqb].
  destruct R1 as [_ [F1 B1]]. rewrite NB, neg7_zero in F1 by (apply Nat.mod_mul; lia). cbn [repeat] in F1. rewrite app_nil_r in F1.
  assert (Ld : length (bb b1) = nd).
  { pose proof (f_equal (@length bool) F1) as X. rewrite flat_length, padded_length in X by exact L. lia. }
  pose proof (check_loop_ok (nblock v lv) (nd mod nblock v lv) (nd / nblock v lv) (ncheck v lv) (nblock v lv) 0
    (repeat 0%N (ncheck v lv)) (NewRSEncoder QField (ncheck v lv)) (bb b1) b1) as CL.
  cbn [Nat.leb] in CL. rewrite CL; clear CL.
  - rewrite lens_from_spec by (apply Nat.lt_le_incl, Nat.mod_upper_bound; lia).
    change (repeat (nd / nblock v lv) (nblock v lv - nd mod nblock v lv) ++ repeat (S (nd / nblock v lv)) (nd mod nblock v lv)) with (code_lens v lv).
    unfold Bytes. cbn [nbit bb].
    rewrite NB. replace (nd * 8 + 8 * (ncheck v lv * nblock v lv)) with ((nd + ncheck v lv * nblock v lv) * 8) by lia.
    rewrite Nat.mod_mul by lia. cbn [Nat.eqb].
    assert (Lr : forall ls d, length (flat_map (rem QField (ncheck v lv)) (chunks ls d)) = length ls * ncheck v lv).
    { induction ls as [|n ls IH]; intros d; cbn [chunks flat_map length]; [reflexivity|]. rewrite app_length, (rem_length _ _ _ G), IH. lia. }
    rewrite app_length, Ld, Lr. rewrite Le. replace (nd + nblock v lv * ncheck v lv) with (vbytes (vt v)) by (unfold nd, DataBytes; lia).
    rewrite Nat.eqb_refl. eexists (bb b1), _. split; [reflexivity|]. cbn [nbit bb].
    rewrite Nat.mod_mul by lia. cbn [Nat.eqb]. auto.
  - constructor.
  - apply repeat_length.
  - rewrite lens_from_spec by (apply Nat.lt_le_incl, Nat.mod_upper_bound; lia).
    change (repeat (nd / nblock v lv) (nblock v lv - nd mod nblock v lv) ++ repeat (S (nd / nblock v lv)) (nd mod nblock v lv)) with (code_lens v lv). lia.
  - rewrite NB. apply Nat.mod_mul. lia.
Qed.
