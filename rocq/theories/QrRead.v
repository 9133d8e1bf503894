(** * Encode and the reader. *)
From Coq Require Import String.
From Coq Require Import NArith ZArith Arith List Bool Lia Permutation.
From Verif Require Import Utf8 Gf256Model Gf256Spec Gf256Proofs RsProofs Gf256Props QrVtab QrModel QrSpec QrBits QrCheck QrInter QrPlan QrStatic QrStatic2 QrDraw.
Import ListNotations.
Open Scope nat_scope.

(** ** A text that fits has a count that fits *)
Definition capacity_ok (v l : nat) : bool :=
  let k := DataBytes v l * 8 in
  (N.of_nat (3 * k / 10) <? 2 ^ N.of_nat (numLen (sizeClass v)))%N && (N.of_nat (2 * k / 11) <? 2 ^ N.of_nat (alphaLen (sizeClass v)))%N
  && (N.of_nat ((k - 4 - stringLen (sizeClass v)) / 8) <? 2 ^ N.of_nat (stringLen (sizeClass v)))%N.
Lemma capacity_all : all_vl capacity_ok = true. Proof. vm_cast_no_check (eq_refl true). Qed.
Lemma fits_seg_ok e v l : 1 <= v <= 40 -> l <= 3 -> Check e = true -> Forall byteb (text_of e) -> EBits e v <= DataBytes v l * 8 -> seg_ok e v.
Proof.
  intros Hv Hl C B F. split; [exact C|]. split; [exact B|]. pose proof (all_vl_spec _ capacity_all v l Hv Hl) as K. unfold capacity_ok in K. cbv zeta in K.
  rewrite !andb_true_iff, !N.ltb_lt in K. destruct K as [[K1 K2] K3]. destruct e as [s|s|s]; cbn [text_of count_len EBits] in *.
  - eapply N.le_lt_trans; [|exact K1]. assert (length s <= 3 * (DataBytes v l * 8) / 10); [|lia]. apply Nat.div_le_lower_bound; [lia|].
    pose proof (Nat.div_mod (10 * length s + 2) 3 ltac:(lia)). pose proof (Nat.mod_upper_bound (10 * length s + 2) 3 ltac:(lia)). lia.
  - eapply N.le_lt_trans; [|exact K2]. assert (length s <= 2 * (DataBytes v l * 8) / 11); [|lia]. apply Nat.div_le_lower_bound; [lia|].
    pose proof (Nat.div_mod (11 * length s + 1) 2 ltac:(lia)). pose proof (Nat.mod_upper_bound (11 * length s + 1) 2 ltac:(lia)). lia.
  - eapply N.le_lt_trans; [|exact K3]. assert (length s <= (DataBytes v l * 8 - 4 - stringLen (sizeClass v)) / 8); [|lia]. apply Nat.div_le_lower_bound; [lia|]. lia.
Qed.
Lemma seg_bits_EBits e v : seg_ok e v -> length (seg_bits e v) = EBits e v.
Proof.
  intros H. destruct (EncodeE_repr e bits0 [] v H repr0) as [L _]. rewrite EncodeE_nbit in L. cbn [app nbit bits0] in L. exact L.
Qed.

(** ** Whole symbols *)
Lemma version_of_side v : (side v - 17) / 4 = v.
Proof. unfold side. replace (17 + 4 * v - 17) with (v * 4) by lia. apply Nat.div_mul. lia. Qed.
Lemma side_stride v : side v = 17 + 4 * v. Proof. reflexivity. Qed.
Lemma combine_split_fst {A B} (l : list (A * B)) : flat_map (fun x => [fst x]) l = map fst l.
Proof. induction l as [|x l IH]; [reflexivity|]. cbn. rewrite IH. reflexivity. Qed.

Local Opaque side data_cells is_function function_colour read_format format_cell1 format_cell2 placement.
Theorem symbol_ok v l m dat chk bm :
  1 <= v <= 40 -> l <= 3 -> m <= 7 -> length dat = DataBytes v l -> Forall byteb dat ->
  chk = flat_map (rem QField (ncheck v l)) (chunks (code_lens v l) dat) ->
  let c := {| Bitmap := bm; Size := side v; Stride := (side v + 7) / 8 * 8 |} in
  read_format (side v) (black_of c) = Some (l, m) ->
  firstn (8 * vbytes (vt v)) (map (fun q => xorb (black_of c (fst q) (snd q)) (mask_bit m (fst q) (snd q))) (data_cells v)) = flat (symbol_order v l dat chk) ->
  read_symbol (side v) (black_of c) = Some {| rd_version := v; rd_level := l; rd_mask := m; rd_blocks := code_blocks v l dat |}.
Proof.
  intros Hv Hl Hm Ld Bd Ec c Rf Bits1. pose proof (NewField_good _ _ _ QField_ok) as [G _].
  destruct (sizes v l Hv Hl) as [N1 [C1 [T _]]]. destruct (code_lens_sum v l Hv Hl) as [Su Le].
  assert (LR : forall d, length (rem QField (ncheck v l) d) = ncheck v l) by (intros; apply (rem_length _ _ _ G)).
  assert (Lchk : length chk = nblock v l * ncheck v l).
  { assert (X : forall ls d, length (flat_map (rem QField (ncheck v l)) (chunks ls d)) = length ls * ncheck v l).
    { induction ls as [|n ls IH]; intros d; cbn [chunks flat_map length]; [reflexivity|]. rewrite app_length, LR, IH. lia. }
    rewrite Ec, X, Le. reflexivity. }
  assert (Bc : Forall byteb chk).
  { rewrite Ec. apply Forall_forall. intros x Hx. apply in_flat_map in Hx. destruct Hx as [d [Hd Hx]].
    assert (Fd : Forall byteb d). { apply Forall_forall. intros z Hz. rewrite Forall_forall in Bd. apply Bd. eapply chunks_incl; eassumption. }
    pose proof (rem_bytes _ _ _ G (ncheck v l) d Fd) as R. rewrite Forall_forall in R. apply R. exact Hx. }
  pose proof (symbol_order_length v l dat chk Hv Hl Ld Lchk) as Lso.
  assert (Bso : Forall byteb (symbol_order v l dat chk)).
  { apply (Permutation_Forall (Permutation_sym (symbol_order_perm v l dat chk Hv Hl Ld Lchk))). apply Forall_app. auto. }
  unfold read_symbol. rewrite version_of_side, Nat.eqb_refl. destruct (Nat.leb_spec 1 v); [|lia]. destruct (Nat.leb_spec v 40); [|lia]. cbn [andb negb].
  rewrite Rf. rewrite total_codewords_ok by exact Hv. rewrite Bits1. rewrite bytes_of_bits_flat by (auto; lia).
  rewrite data_codewords_ok, block_lengths_ok by assumption. destruct (tables v l Hv Hl) as [-> ->].
  do 2 f_equal. unfold symbol_order. set (r1 := rr (S (DataBytes v l / nblock v l)) (chunks (code_lens v l) dat)).
  assert (L1 : length r1 = DataBytes v l).
  { unfold r1. rewrite (Permutation_length (rr_perm _ dat (code_lens v l) ltac:(lia) (code_lens_max v l))). exact Ld. }
  rewrite firstn_app, skipn_app, L1, Nat.sub_diag. rewrite firstn_all2, skipn_all2 by lia. cbn [firstn skipn app]. rewrite app_nil_r. unfold r1.
  rewrite blocks_of_rr; [|apply chunks_lengths; lia|apply code_lens_max].
  fold (check_lens v l). rewrite blocks_of_rr; [|apply chunks_lengths; unfold check_lens; rewrite list_sum_repeat; lia|apply check_lens_max].
  unfold check_lens, code_blocks. replace (nblock v l) with (length (chunks (code_lens v l) dat)).
  - rewrite Ec, chunks_repeat_flat_map by exact LR. apply combine_map.
  - rewrite <- Le. clear. generalize (code_lens v l). intros ls. revert dat. induction ls as [|n ls IH]; intros dat; cbn [chunks length]; [reflexivity|]. rewrite IH. reflexivity.
Qed.
Theorem plan_encode_ok v l m es : 1 <= v <= 40 -> l <= 3 -> m <= 7 -> Forall (fun e => seg_ok e v) es ->
  list_sum (map (fun e => EBits e v) es) <= DataBytes v l * 8 ->
  exists p c dat, NewPlan v l m = Some p /\ PlanEncode p es = Ok c /\ Size c = side v
    /\ length dat = DataBytes v l /\ Forall byteb dat
    /\ flat dat = padded (DataBytes v l) (flat_map (fun e => seg_bits e v) es)
    /\ (forall y x, y < side v -> x < side v -> is_function v y x = true -> match function_colour v y x with Some b => black_of c y x = b | None => True end)
    /\ read_symbol (side v) (black_of c) = Some {| rd_version := v; rd_level := l; rd_mask := m; rd_blocks := code_blocks v l dat |}
    /\ read_text (side v) (black_of c) = Some (l, flat_map text_of es).
Proof.
  intros Hv Hl Hm F Fit. pose proof (NewField_good _ _ _ QField_ok) as [G _].
  destruct (encode_all_repr es v bits0 [] F repr0) as [b [Eb Rb]]. cbn [app] in Rb.
  assert (Ls : length (flat_map (fun e => seg_bits e v) es) = list_sum (map (fun e => EBits e v) es)).
  { clear -F. induction F as [|e es H F IH]; [reflexivity|]. cbn [flat_map map]. rewrite app_length, IH, list_sum_cons, seg_bits_EBits by exact H. reflexivity. }
  destruct (AddCheckBytes_ok b _ v l Hv Hl Rb ltac:(rewrite Ls; lia)) as [dat [b2 [Ea [Ebb [Fd [Bd Ld]]]]]].
  destruct (sizes v l Hv Hl) as [N1 [C1 [T _]]]. destruct (code_lens_sum v l Hv Hl) as [Su Le].
  set (chk := flat_map (rem QField (ncheck v l)) (chunks (code_lens v l) dat)) in *.
  assert (Lchk : length chk = nblock v l * ncheck v l).
  { assert (X : forall ls d, length (flat_map (rem QField (ncheck v l)) (chunks ls d)) = length ls * ncheck v l).
    { induction ls as [|n ls IH]; intros d; cbn [chunks flat_map length]; [reflexivity|]. rewrite app_length, (rem_length _ _ _ G), IH. lia. }
    unfold chk. rewrite X, Le. reflexivity. }
  destruct (draw_plan v l m dat chk Hv Hl Hm Ld Lchk) as [p [bm [En [P1 [P2 [P3 [P4 [Ed [Df [Dr Db]]]]]]]]]].
  set (c := {| Bitmap := bm; Size := side v; Stride := (side v + 7) / 8 * 8 |}) in *.
  exists p, c, dat. split; [exact En|].
  assert (EP : PlanEncode p es = Ok c).
  { unfold PlanEncode. rewrite P1, P2, P3, P4, Eb. assert (Nb : nbit b = list_sum (map (fun e => EBits e v) es)) by (rewrite <- (proj1 Rb); exact Ls).
    destruct (Nat.ltb_spec (DataBytes v l * 8) (nbit b)); [lia|]. rewrite Ea, Ebb, Ed. reflexivity. }
  split; [exact EP|]. split; [reflexivity|]. split; [exact Ld|]. split; [exact Bd|]. split; [exact Fd|]. split; [exact Df|].
  pose proof (symbol_ok v l m dat chk bm Hv Hl Hm Ld Bd eq_refl Dr Db) as RS. fold c in RS. split; [exact RS|].
  unfold read_text. rewrite RS. cbn [rd_blocks rd_version rd_level]. unfold code_blocks. rewrite flat_map_map. cbn [fst].
  assert (EC : flat_map (fun a : list N => a) (chunks (code_lens v l) dat) = dat) by (rewrite flat_map_concat_map, map_id; apply chunks_concat; lia).
  rewrite EC, Fd. rewrite <- Ls in Fit. destruct (padded_ends (DataBytes v l) (flat_map (fun e => seg_bits e v) es) ltac:(lia)) as [rest [Er Ends]]. rewrite Er.
  rewrite (read_all es v rest); [reflexivity|exact F|exact Ends|].
  rewrite app_length. assert (length es <= length (flat_map (fun e => seg_bits e v) es)); [|lia].
  clear. induction es as [|e es IH]; [reflexivity|]. cbn [length flat_map]. rewrite app_length. pose proof (seg_bits_length e v). lia.
Qed.
