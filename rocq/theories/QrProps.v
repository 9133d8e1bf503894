(** * C18-C23, C49, C50: QR encoding (coding/qr.go and qr.go). *)
From Coq Require Import String.
From Coq Require Import NArith ZArith Arith List Bool Lia Permutation.
From Verif Require Import Utf8 Gf256Model Gf256Spec Gf256Proofs RsProofs Gf256Props QrVtab QrModel QrSpec QrBits QrCheck QrInter QrPlan QrStatic QrStatic2 QrDraw QrRead.
Import ListNotations.
Open Scope nat_scope.

(** C18: Encode appends exactly Bits(v) bits. *)
Theorem C18_size_predicted e b v : nbit (EncodeE e b v) = nbit b + EBits e v.
Proof. apply EncodeE_nbit. Qed.
Example C18_nonvacuous : nbit (EncodeE (Num (bytes_of "1234567")) bits0 1) = 4 + 10 + 24 /\ EBits (Alpha (bytes_of "HELLO WORLD")) 10 = 4 + 11 + 61
  /\ EBits (Str (bytes_of "abc")) 27 = 4 + 16 + 24.
Proof. repeat split. Qed.

(** C19: the bits written, read by the standard, are the text.  Any number of segments. *)
Definition encode_segments (v : nat) (es : list Encoding) : Bits := fold_left (fun b e => EncodeE e b v) es bits0.
Theorem C19_bits_decode_to_text v l es : 1 <= v <= 40 -> l <= 3 ->
  Forall (fun e => Check e = true /\ Forall byteb (text_of e) /\ EBits e v <= 8 * DataBytes v l) es ->
  let b := encode_segments v es in
  let written := firstn (nbit b) (flat_map (bits_of 8) (bb b)) in
  length written = nbit b
  /\ forall fuel rest, length es < fuel -> (length rest < 4 \/ firstn 4 rest = [false; false; false; false]) ->
       read_segments fuel v (written ++ rest) = Some (flat_map text_of es).
Proof.
  intros Hv Hl F b written.
  assert (F' : Forall (fun e => seg_ok e v) es).
  { eapply Forall_impl; [|exact F]. intros e [H1 [H2 H3]]. apply (fits_seg_ok e v l); auto. lia. }
  assert (R : forall es b0 l0, Forall (fun e => seg_ok e v) es -> repr b0 l0 -> repr (fold_left (fun b e => EncodeE e b v) es b0) (l0 ++ flat_map (fun e => seg_bits e v) es)).
  { clear. induction es as [|e es IH]; intros b0 l0 F R; cbn [fold_left flat_map]; [rewrite app_nil_r; exact R|]. inversion F; subst. rewrite app_assoc. apply IH; [assumption|]. apply EncodeE_repr; assumption. }
  specialize (R es bits0 [] F' repr0). cbn [app] in R. change (repr b (flat_map (fun e => seg_bits e v) es)) in R. destruct R as [L [Fl _]].
  assert (EW : written = flat_map (fun e => seg_bits e v) es).
  { unfold written. rewrite Fl, <- L. rewrite firstn_app, firstn_all, Nat.sub_diag. cbn [firstn]. apply app_nil_r. }
  rewrite EW. split; [exact L|]. intros fuel rest Lf Er. apply read_all; [exact F'| |exact Lf].
  destruct Er as [Er|Er]; [left; exact Er|right]. exists (skipn 4 rest). rewrite <- (firstn_skipn 4 rest) at 1. rewrite Er. reflexivity.
Qed.
Example C19_nonvacuous :
  let es := [Num (bytes_of "01234567"); Alpha (bytes_of "AC-42"); Str (bytes_of "a b")] in
  Forall (fun e => Check e = true /\ Forall byteb (text_of e) /\ EBits e 1 <= 8 * DataBytes 1 0) es
  /\ read_segments 4 1 (firstn 100 (flat_map (bits_of 8) (bb (encode_segments 1 es)))) = None
  /\ read_segments 4 1 (firstn (nbit (encode_segments 1 es)) (flat_map (bits_of 8) (bb (encode_segments 1 es)))) = Some (bytes_of "01234567AC-42a b").
Proof.
  split; [|split; vm_compute; reflexivity].
  assert (B : forallb (fun e => Check e && forallb (fun x => (x <? 256)%N) (text_of e) && (EBits e 1 <=? 8 * DataBytes 1 0))
    [Num (bytes_of "01234567"); Alpha (bytes_of "AC-42"); Str (bytes_of "a b")] = true) by (vm_compute; reflexivity).
  rewrite forallb_forall in B. apply Forall_forall. intros e He. specialize (B e He). rewrite !andb_true_iff, Nat.leb_le, forallb_forall in B.
  destruct B as [[B1 B2] B3]. split; [exact B1|]. split; [|exact B3]. apply Forall_forall. intros x Hx. apply N.ltb_lt. apply B2. exact Hx.
Qed.

(** ** qr.Encode *)
Lemma num_len n : (10 * n + 2) / 3 = 10 * (n / 3) + nth (n mod 3) [0; 4; 7] 0.
Proof.
  pose proof (Nat.div_mod n 3 ltac:(lia)) as D. pose proof (Nat.mod_upper_bound n 3 ltac:(lia)) as B. set (q := n / 3) in *. set (r := n mod 3) in *. rewrite D.
  destruct r as [|[|[|r]]]; [| | |lia]; cbn [nth].
  - symmetry. apply (Nat.div_unique _ 3 _ 2); lia.
  - symmetry. apply (Nat.div_unique _ 3 _ 0); lia.
  - symmetry. apply (Nat.div_unique _ 3 _ 1); lia.
Qed.
Lemma alnum_len n : (11 * n + 1) / 2 = 11 * (n / 2) + nth (n mod 2) [0; 6] 0.
Proof.
  pose proof (Nat.div_mod n 2 ltac:(lia)) as D. pose proof (Nat.mod_upper_bound n 2 ltac:(lia)) as B. set (q := n / 2) in *. set (r := n mod 2) in *. rewrite D.
  destruct r as [|[|r]]; [| |lia]; cbn [nth].
  - symmetry. apply (Nat.div_unique _ 2 _ 1); lia.
  - symmetry. apply (Nat.div_unique _ 2 _ 0); lia.
Qed.
Lemma choose_ok t : Check (choose t) = true /\ text_of (choose t) = t.
Proof. unfold choose. destruct (Check (Num t)) eqn:E; [auto|]. destruct (Check (Alpha t)) eqn:E2; auto. Qed.
Lemma choose_bits v t : bits_needed v t (EBits (choose t) v).
Proof.
  unfold choose. destruct (Check (Num t)) eqn:E1; [|destruct (Check (Alpha t)) eqn:E2]; cbn [EBits].
  - rewrite num_len, Nat.add_assoc. apply need_num. apply Check_num. exact E1.
  - rewrite alnum_len, Nat.add_assoc. apply need_alnum; [|apply Check_alpha; exact E2]. intros X. apply Check_num in X. congruence.
  - apply need_bytes; intros X; [apply Check_num in X|apply Check_alpha in X]; congruence.
Qed.
Lemma bits_needed_fun v t k1 k2 : bits_needed v t k1 -> bits_needed v t k2 -> k1 = k2.
Proof. intros H1 H2. inversion H1; inversion H2; subst; try reflexivity; contradiction. Qed.
Lemma fits_iff v l t : 1 <= v <= 40 -> l <= 3 -> (fits v l t <-> EBits (choose t) v <= DataBytes v l * 8).
Proof.
  intros Hv Hl. unfold fits. rewrite data_codewords_ok by assumption. split.
  - intros [k [H1 H2]]. rewrite (bits_needed_fun _ _ _ _ (choose_bits v t) H1). lia.
  - intros H. exists (EBits (choose t) v). split; [apply choose_bits|lia].
Qed.
Lemma pick_version_spec e l todo : forall v,
  match pick_version todo v e l with
  | Some w => v <= w < v + todo /\ EBits e w <= DataBytes w l * 8 /\ forall u, v <= u < w -> DataBytes u l * 8 < EBits e u
  | None => forall u, v <= u < v + todo -> DataBytes u l * 8 < EBits e u
  end.
Proof.
  induction todo as [|t IH]; intros v; cbn [pick_version]; [intros u Hu; lia|].
  destruct (Nat.leb_spec (EBits e v) (DataBytes v l * 8)) as [H|H].
  - split; [lia|]. split; [exact H|]. intros u Hu. lia.
  - specialize (IH (S v)). destruct (pick_version t (S v) e l) as [w|].
    + destruct IH as [H1 [H2 H3]]. split; [lia|]. split; [exact H2|]. intros u Hu. destruct (Nat.eq_dec u v) as [->|]; [exact H|apply H3; lia].
    + intros u Hu. destruct (Nat.eq_dec u v) as [->|]; [exact H|apply IH; lia].
Qed.
Lemma Encode_cases t l : Forall byteb t -> l <= 3 ->
  (Encode t l = Error /\ forall v, 1 <= v <= 40 -> ~ fits v l t)
  \/ exists v c dat, 1 <= v <= 40 /\ fits v l t /\ (forall u, 1 <= u < v -> ~ fits u l t)
       /\ Encode t l = Ok c /\ Size c = side v /\ length dat = DataBytes v l /\ Forall byteb dat
       /\ (forall y x, y < side v -> x < side v -> is_function v y x = true -> match function_colour v y x with Some b => black_of c y x = b | None => True end)
       /\ read_symbol (side v) (black_of c) = Some {| rd_version := v; rd_level := l; rd_mask := 0; rd_blocks := code_blocks v l dat |}
       /\ read_text (side v) (black_of c) = Some (l, t).
Proof.
  intros B Hl. unfold Encode. pose proof (pick_version_spec (choose t) l 40 1) as P. destruct (pick_version 40 1 (choose t) l) as [v|].
  - right. destruct P as [P1 [P2 P3]]. assert (Hv : 1 <= v <= 40) by lia. destruct (choose_ok t) as [C T].
    assert (SO : seg_ok (choose t) v) by (apply (fits_seg_ok _ v l); auto; rewrite T; exact B).
    destruct (plan_encode_ok v l 0 [choose t] Hv Hl ltac:(lia) (Forall_cons (P := fun e => seg_ok e v) (choose t) SO (Forall_nil _)) ltac:(cbn; lia)) as [p [c [dat [E1 [E2 [E3 [E4 [E5 [_ [E7 [E8 E9]]]]]]]]]]].
    exists v, c, dat. split; [exact Hv|]. split; [apply fits_iff; auto|]. split; [intros u Hu; rewrite fits_iff by lia; specialize (P3 u ltac:(lia)); lia|].
    rewrite E1. cbn [flat_map] in E9. rewrite T, app_nil_r in E9. auto 8.
  - left. split; [reflexivity|]. intros v Hv. rewrite fits_iff by lia. specialize (P v ltac:(lia)). lia.
Qed.

(** C20 *)
Theorem C20_smallest_version t l c : Forall byteb t -> l <= 3 -> Encode t l = Ok c ->
  exists v, 1 <= v <= 40 /\ Size c = side v /\ fits v l t /\ forall u, 1 <= u < v -> ~ fits u l t.
Proof.
  intros B Hl E. destruct (Encode_cases t l B Hl) as [[E' _]|[v [c' [dat [Hv [F [M [E' [Sz _]]]]]]]]]; rewrite E in E'; [discriminate|].
  injection E' as <-. exists v. auto.
Qed.
Theorem C20_error_iff_no_version_fits t l : Forall byteb t -> l <= 3 ->
  (Encode t l = Error <-> forall v, 1 <= v <= 40 -> ~ fits v l t) /\ Encode t l <> Panic.
Proof.
  intros B Hl. destruct (Encode_cases t l B Hl) as [[E N]|[v [c [dat [Hv [F [M [E _]]]]]]]]; rewrite E.
  - split; [tauto|discriminate].
  - split; [|discriminate]. split; [discriminate|]. intros H. exfalso. exact (H v Hv F).
Qed.
Example C20_nonvacuous : match Encode (bytes_of "https://example.org/") 1 with Ok c => Size c = 25 | _ => False end /\ Encode (repeat 97%N 2332) 2 = Error.
Proof. split; vm_compute; reflexivity. Qed.

(** C21 *)
Definition write_all (ws : list (N * nat)) : Bits := fold_left (fun b w => Write b (fst w) (snd w)) ws bits0.
Definition rs_block (c : nat) (blk : list N * list N) : Prop :=
  length (snd blk) = c /\ Forall byteb (fst blk) /\ Forall byteb (snd blk)
  /\ forall j, j < c -> horner (Mul qr_field) (fst blk ++ snd blk) (Exp qr_field (Z.of_nat j)) = 0%N.
Lemma rem_block c d : Forall byteb d -> rs_block c (d, rem QField c d).
Proof.
  intros B. pose proof (NewField_good _ _ _ QField_ok) as [G _]. split; [apply (rem_length _ _ _ G)|]. split; [exact B|]. split; [apply (rem_bytes _ _ _ G); exact B|].
  intros j Hj. exact (rem_codeword _ _ _ G c d j B Hj).
Qed.
Theorem C21_padding_and_check_bytes v l ws : 1 <= v <= 40 -> l <= 3 -> Forall (fun w => (fst w < 2 ^ N.of_nat (snd w))%N) ws ->
  let bits := flat_map (fun w => bits_of (snd w) (fst w)) ws in
  length bits <= 8 * data_codewords v l ->
  exists b2 data checks,
    AddCheckBytes (write_all ws) v l = Some b2 /\ Bytes b2 = Some (data ++ concat checks)
    /\ flat_map (bits_of 8) data = padded (data_codewords v l) bits /\ Forall byteb data /\ length data = data_codewords v l
    /\ length checks = num_blocks v l
    /\ Forall (rs_block (ecc_per_block v l)) (combine (chunks (block_lengths v l) data) checks)
    /\ length (data ++ concat checks) = total_codewords v.
Proof.
  intros Hv Hl F bits L. rewrite data_codewords_ok, block_lengths_ok, total_codewords_ok in * by assumption. destruct (tables v l Hv Hl) as [-> ->].
  assert (R : forall ws b0 l0, Forall (fun w => (fst w < 2 ^ N.of_nat (snd w))%N) ws -> repr b0 l0 ->
    repr (fold_left (fun b w => Write b (fst w) (snd w)) ws b0) (l0 ++ flat_map (fun w => bits_of (snd w) (fst w)) ws)).
  { clear. induction ws as [|w ws IH]; intros b0 l0 F R; cbn [fold_left flat_map]; [rewrite app_nil_r; exact R|]. inversion F; subst. rewrite app_assoc. apply IH; [assumption|]. apply Write_repr; assumption. }
  specialize (R ws bits0 [] F repr0). cbn [app] in R. fold (write_all ws) bits in R.
  destruct (AddCheckBytes_ok _ _ v l Hv Hl R L) as [dat [b2 [E1 [E2 [E3 [E4 E5]]]]]]. pose proof (NewField_good _ _ _ QField_ok) as [G _].
  destruct (code_lens_sum v l Hv Hl) as [Su Le]. destruct (sizes v l Hv Hl) as [_ [_ [T _]]].
  exists b2, dat, (map (rem QField (ncheck v l)) (chunks (code_lens v l) dat)). rewrite <- flat_map_concat_map.
  assert (LC : length (chunks (code_lens v l) dat) = nblock v l).
  { rewrite <- Le. clear. generalize (code_lens v l). intros ls. revert dat. induction ls as [|n ls IH]; intros dat; cbn [chunks length]; [reflexivity|]. rewrite IH. reflexivity. }
  do 5 (split; [assumption|]). split; [rewrite map_length; exact LC|]. split.
  - rewrite combine_map. apply Forall_forall. intros x Hx. apply in_map_iff in Hx. destruct Hx as [d [<- Hd]]. apply rem_block.
    apply Forall_forall. intros z Hz. rewrite Forall_forall in E4. apply E4. eapply chunks_incl; eassumption.
  - rewrite app_length, E5. assert (X : forall ds, length (flat_map (rem QField (ncheck v l)) ds) = length ds * ncheck v l).
    { induction ds as [|d ds IH]; [reflexivity|]. cbn [flat_map length]. rewrite app_length, (rem_length _ _ _ G), IH. lia. }
    rewrite X, LC. unfold DataBytes. lia.
Qed.
Example C21_nonvacuous :
  let ws := map (fun w => (fst w, N.to_nat (snd w))) [(4, 4); (2, 8); (104, 8); (105, 8)]%N in
  match AddCheckBytes (write_all ws) 1 2 with
  | Some b2 => Bytes b2 = Some [0x40; 0x26; 0x86; 0x90; 0xec; 0x11; 0xec; 0x11; 0xec; 0x11; 0xec; 0x11; 0xec; 184; 103; 21; 84; 100; 219; 109; 238; 44; 60; 78; 168; 200]%N
  | None => False
  end.
Proof. vm_compute. reflexivity. Qed.

(** C22 *)
Definition pixel_at (p : Plan) (c : nat * nat) : Pixel := nth (snd c) (nth (fst c) (p_Pixel p) []) (pix NoRole false).
Definition coded (p : Pixel) : Prop := role p = RData \/ role p = RCheck.
Theorem C22_plan_layout v l m : 1 <= v <= 40 -> l <= 3 -> m <= 7 -> exists p,
  NewPlan v l m = Some p
  /\ length (p_Pixel p) = side v /\ Forall (fun r => length r = side v) (p_Pixel p)
  (* the first 8 * total_codewords data modules, in placement order, carry every bit offset exactly once *)
  /\ let cells := firstn (8 * total_codewords v) (data_cells v) in
     let order := map (fun c => offset (pixel_at p c)) cells in
     Permutation order (seq 0 (8 * total_codewords v))
     /\ (forall c, In c cells -> role (pixel_at p c) = if offset (pixel_at p c) <? 8 * data_codewords v l then RData else RCheck)
     (* no other module carries a bit *)
     /\ (forall y x, y < side v -> x < side v -> coded (pixel_at p (y, x)) -> In (y, x) cells)
     (* the order is the standard's interleaving of the blocks *)
     /\ forall cws, length cws = total_codewords v -> exists stream,
          map (bit_at cws) order = map Some (flat_map (bits_of 8) stream)
          /\ blocks_of (block_lengths v l) (firstn (data_codewords v l) stream) = chunks (block_lengths v l) (firstn (data_codewords v l) cws)
          /\ blocks_of (repeat (ecc_per_block v l) (num_blocks v l)) (skipn (data_codewords v l) stream)
             = chunks (repeat (ecc_per_block v l) (num_blocks v l)) (skipn (data_codewords v l) cws).
Proof.
  intros Hv Hl Hm. destruct (plan_ok v l m Hv Hl Hm) as [px [g [Ep [En [W [Md [Ff _]]]]]]].
  destruct (lplan_bits_ok v l Hv Hl) as [px' [Ep' [Lp [Cp Vp]]]]. rewrite Ep in Ep'. injection Ep' as <-.
  destruct (lplan_offsets v l Hv Hl) as [px' [Ep' [Op Rp]]]. rewrite Ep in Ep'. injection Ep' as <-.
  pose proof (data_cells_count v Hv) as DC. destruct (sizes v l Hv Hl) as [N1 [C1 [T _]]]. destruct (code_lens_sum v l Hv Hl) as [Su Le].
  rewrite block_lengths_ok, data_codewords_ok, total_codewords_ok by assumption. destruct (tables v l Hv Hl) as [-> ->].
  set (total := vbytes (vt v)) in *.
  eexists. split; [exact En|]. pose proof (mplan_wf _ m _ W) as W'. cbn [p_Pixel]. split; [apply W'|]. split; [apply W'|].
  set (p := {| p_version := v; p_level := l; p_mask := m; p_DataBytes := _; p_CheckBytes := _; p_Blocks := _; p_Pixel := _ |}).
  assert (PC : forall c, In c (data_cells v) -> role (pixel_at p c) = role (cell g (fst c) (snd c)) /\ offset (pixel_at p c) = offset (cell g (fst c) (snd c))).
  { intros c Hc. destruct (data_cell_lt v c ltac:(lia) Hc) as [[Hy Hx] _]. change (pixel_at p c) with (cell (mplan m g) (fst c) (snd c)).
    rewrite (mplan_cell (side v)) by assumption. destruct (maskable (cell g (fst c) (snd c)) && Invert m (fst c) (snd c)); split; reflexivity. }
  cbv zeta. set (cells := firstn (8 * total) (data_cells v)).
  assert (Ic : forall c, In c cells -> In c (data_cells v)) by (intros c Hc; rewrite <- (firstn_skipn (8 * total) (data_cells v)); apply in_or_app; left; exact Hc).
  assert (Gc : map (fun c => cell g (fst c) (snd c)) cells = px).
  { unfold cells. rewrite <- firstn_map, Md, firstn_firstn. rewrite Nat.min_l by lia. unfold src_of. rewrite firstn_app, Lp, Nat.sub_diag. cbn [firstn].
    rewrite app_nil_r. apply firstn_all2. lia. }
  assert (Or : map (fun c => offset (pixel_at p c)) cells = map offset px).
  { rewrite <- Gc, map_map. apply map_ext_in. intros c Hc. apply PC. apply Ic. exact Hc. }
  rewrite Or. split; [|split; [|split]].
  - rewrite Op. pose proof (symbol_order_perm v l (seq 0 (DataBytes v l)) (seq (DataBytes v l) (nblock v l * ncheck v l)) Hv Hl (seq_length _ _) (seq_length _ _)) as P.
    rewrite <- seq_app in P. replace (DataBytes v l + nblock v l * ncheck v l) with total in P by (unfold DataBytes, total; lia).
    etransitivity; [apply Permutation_flat_map; exact P|]. rewrite <- seq_eights. apply Permutation_refl.
  - intros c Hc. destruct (PC c (Ic c Hc)) as [-> ->].
    assert (Hp : In (cell g (fst c) (snd c)) px) by (rewrite <- Gc; apply (in_map (fun c => cell g (fst c) (snd c))); exact Hc).
    rewrite map_map in Rp. destruct (In_nth _ _ (pix NoRole false) Hp) as [k [Hk Ek]].
    pose proof (f_equal (fun z => nth k z (NoRole, 0)) Rp) as X. cbv beta in X.
    rewrite (nth_indep _ (NoRole, 0) ((fun q => (role q, offset q)) (pix NoRole false))) in X by (rewrite map_length; exact Hk). rewrite (map_nth (fun q => (role q, offset q))) in X.
    rewrite (nth_indep (map _ px) (NoRole, 0) ((fun q => (if offset q <? 8 * DataBytes v l then RData else RCheck, offset q)) (pix NoRole false))) in X by (rewrite map_length; exact Hk).
    rewrite (map_nth (fun q => (if offset q <? 8 * DataBytes v l then RData else RCheck, offset q))) in X. rewrite Ek in X. congruence.
  - intros y x Hy Hx Cd. destruct (is_function v y x) eqn:Fn.
    + exfalso. destruct (Ff y x Hy Hx Fn) as [M _]. change (pixel_at p (y, x)) with (cell (mplan m g) y x) in Cd. rewrite (mplan_cell (side v)) in Cd by assumption.
      rewrite M in Cd. cbn [andb] in Cd. unfold maskable in M. destruct Cd as [Cd|Cd]; rewrite Cd in M; discriminate.
    + pose proof (data_cell_in v y x ltac:(lia) Hy Hx Fn) as I1. rewrite <- (firstn_skipn (8 * total) (data_cells v)) in I1. apply in_app_or in I1. destruct I1 as [I1|I1]; [exact I1|].
      exfalso. assert (I2 : In (y, x) (data_cells v)) by (rewrite <- (firstn_skipn (8 * total) (data_cells v)); apply in_or_app; right; exact I1).
      destruct (PC _ I2) as [Pr _]. cbn [fst snd] in Pr. unfold coded in Cd. rewrite Pr in Cd.
      assert (Ex : In (cell g y x) (skipn (8 * total) (firstn (length (data_cells v)) (src_of px)))).
      { rewrite <- Md, skipn_map. apply (in_map (fun c => cell g (fst c) (snd c))) in I1. exact I1. }
      rewrite skipn_firstn_comm in Ex. unfold src_of in Ex. rewrite skipn_app, Lp, Nat.sub_diag, skipn_all2 in Ex by lia. cbn [app skipn] in Ex.
      assert (Ex' : In (cell g y x) (repeat (pix RExtra false) 7)).
      { rewrite <- (firstn_skipn (length (data_cells v) - 8 * total)). apply in_or_app. left. exact Ex. }
      apply repeat_spec in Ex'. rewrite Ex' in Cd. cbn in Cd. destruct Cd; discriminate.
  - intros cws Lw. set (nd := DataBytes v l) in *. set (dat := firstn nd cws). set (chk := skipn nd cws).
    assert (Hnd : nd + nblock v l * ncheck v l = total) by (unfold nd, DataBytes, total; lia).
    assert (Ld : length dat = nd) by (unfold dat; rewrite firstn_length; lia). assert (Lk : length chk = nblock v l * ncheck v l) by (unfold chk; rewrite skipn_length; lia).
    exists (symbol_order v l dat chk). split; [|].
    + rewrite <- (Vp dat chk Ld Lk). unfold dat, chk. rewrite firstn_skipn, map_map. reflexivity.
    + unfold symbol_order. set (r1 := rr (S (DataBytes v l / nblock v l)) (chunks (code_lens v l) dat)).
      assert (L1 : length r1 = nd).
      { unfold r1. rewrite (Permutation_length (rr_perm _ dat (code_lens v l) ltac:(lia) (code_lens_max v l))). exact Ld. }
      rewrite firstn_app, skipn_app, L1, Nat.sub_diag. rewrite firstn_all2, skipn_all2 by lia. cbn [firstn skipn app]. rewrite app_nil_r. unfold r1.
      rewrite blocks_of_rr; [|apply chunks_lengths; lia|apply code_lens_max]. split; [reflexivity|].
      fold (check_lens v l). apply blocks_of_rr; [apply chunks_lengths; unfold check_lens; rewrite list_sum_repeat; lia|apply check_lens_max].
Qed.
Theorem C22_versions_outside_refused v l m : v = 0 \/ 40 < v -> NewPlan v l m = None.
Proof.
  intros H. unfold NewPlan, vplan. destruct (Nat.ltb_spec v 1), (Nat.ltb_spec 40 v); cbn [orb]; try reflexivity; lia.
Qed.

(** C23: a reader written from the standard recovers level and text. *)
Theorem C23_reader_recovers_text t l c : Forall byteb t -> l <= 3 -> Encode t l = Ok c ->
  read_text (Size c) (fun y x => Black c (Z.of_nat x) (Z.of_nat y)) = Some (l, t).
Proof.
  intros B Hl E. destruct (Encode_cases t l B Hl) as [[E' _]|[v [c' [dat [Hv [F [M [E' [Sz [_ [_ [_ [_ R]]]]]]]]]]]]]; rewrite E in E'; [discriminate|].
  injection E' as <-. rewrite Sz. exact R.
Qed.
(** Plan.Encode, for any version, level, mask and list of segments. *)
Theorem C23_plan_encode v l m es : 1 <= v <= 40 -> l <= 3 -> m <= 7 ->
  Forall (fun e => Check e = true /\ Forall byteb (text_of e)) es ->
  list_sum (map (fun e => EBits e v) es) <= 8 * data_codewords v l ->
  exists p c, NewPlan v l m = Some p /\ PlanEncode p es = Ok c /\ Size c = side v
    /\ read_text (side v) (fun y x => Black c (Z.of_nat x) (Z.of_nat y)) = Some (l, flat_map text_of es).
Proof.
  intros Hv Hl Hm F Fit. rewrite data_codewords_ok in Fit by assumption.
  assert (SO : Forall (fun e => seg_ok e v) es).
  { apply Forall_forall. intros e He. rewrite Forall_forall in F. destruct (F e He) as [C B]. apply (fits_seg_ok e v l); auto.
    assert (X : forall (l : list nat) x, In x l -> x <= list_sum l) by (clear; induction l as [|a l IH]; intros x H; [destruct H|]; destruct H as [->|H]; rewrite list_sum_cons; [lia|specialize (IH x H); lia]).
    specialize (X _ _ (in_map (fun e => EBits e v) _ _ He)). lia. }
  destruct (plan_encode_ok v l m es Hv Hl Hm SO ltac:(lia)) as [p [c [dat [E1 [E2 [E3 [_ [_ [_ [_ [_ E9]]]]]]]]]]]. exists p, c. auto.
Qed.
(** What does not pass Check, or does not fit, is refused; nothing panics. *)
Theorem C23_plan_refuses v l m es : 1 <= v <= 40 -> l <= 3 -> m <= 7 -> Forall (fun e => Forall byteb (text_of e)) es ->
  exists p, NewPlan v l m = Some p /\ PlanEncode p es <> Panic
    /\ (PlanEncode p es = Error <-> Exists (fun e => Check e = false) es \/ 8 * data_codewords v l < list_sum (map (fun e => EBits e v) es)).
Proof.
  intros Hv Hl Hm B. destruct (plan_ok v l m Hv Hl Hm) as [px [g [_ [En _]]]]. rewrite data_codewords_ok by assumption. eexists. split; [exact En|].
  set (p := {| p_version := v; p_level := l; p_mask := m; p_DataBytes := _; p_CheckBytes := _; p_Blocks := _; p_Pixel := _ |}) in *.
  assert (NB : forall es b, match encode_all v es b with
     | Some b' => Forall (fun e => Check e = true) es /\ nbit b' = nbit b + list_sum (map (fun e => EBits e v) es)
     | None => Exists (fun e => Check e = false) es end).
  { clear. induction es as [|e es IH]; intros b; cbn [encode_all map]; [split; [constructor|cbn; lia]|]. destruct (Check e) eqn:C; [|left; exact C].
    specialize (IH (EncodeE e b v)). destruct (encode_all v es (EncodeE e b v)); [|right; exact IH]. destruct IH as [I1 I2]. split; [constructor; assumption|].
    rewrite I2, EncodeE_nbit, list_sum_cons. lia. }
  specialize (NB es bits0). destruct (encode_all v es bits0) as [b|] eqn:Ee.
  - destruct NB as [FC Nb]. cbn [nbit bits0 Nat.add] in Nb.
    assert (NE : ~ Exists (fun e => Check e = false) es).
    { intros X. apply Exists_exists in X. destruct X as [e [He X]]. rewrite Forall_forall in FC. rewrite (FC e He) in X. discriminate. }
    destruct (Nat.le_gt_cases (list_sum (map (fun e => EBits e v) es)) (8 * DataBytes v l)) as [Fit|Fit].
    + destruct (C23_plan_encode v l m es Hv Hl Hm) as [p' [c [E1 [E2 _]]]].
      * apply Forall_forall. intros e He. rewrite Forall_forall in FC, B. auto.
      * rewrite data_codewords_ok by assumption. exact Fit.
      * rewrite En in E1. injection E1 as <-. fold p in E2. rewrite E2. split; [discriminate|]. split; [discriminate|]. intros [X|X]; [contradiction|lia].
    + assert (PE : PlanEncode p es = Error).
      { unfold PlanEncode. change (p_version p) with v. rewrite Ee. change (p_DataBytes p) with (DataBytes v l). destruct (Nat.ltb_spec (DataBytes v l * 8) (nbit b)); [reflexivity|lia]. }
      rewrite PE. split; [discriminate|]. split; [intros _; right; exact Fit|reflexivity].
  - assert (PE : PlanEncode p es = Error) by (unfold PlanEncode; change (p_version p) with v; rewrite Ee; reflexivity).
    rewrite PE. split; [discriminate|]. split; [intros _; left; exact NB|reflexivity].
Qed.
Example C23_nonvacuous : match Encode (bytes_of "HELLO WORLD") 2 with
  | Ok c => Size c = 21 /\ read_text 21 (fun y x => Black c (Z.of_nat x) (Z.of_nat y)) = Some (2, bytes_of "HELLO WORLD")
  | _ => False end.
Proof. vm_compute. split; reflexivity. Qed.

(** C49: finder, separator, timing, alignment, version and dark modules have the standard's colours. *)
Theorem C49_function_patterns t l c y x b : Forall byteb t -> l <= 3 -> Encode t l = Ok c -> y < Size c -> x < Size c ->
  function_colour ((Size c - 17) / 4) y x = Some b -> Black c (Z.of_nat x) (Z.of_nat y) = b.
Proof.
  intros B Hl E Hy Hx Fc. destruct (Encode_cases t l B Hl) as [[E' _]|[v [c' [dat [Hv [F [M [E' [Sz [_ [_ [Col _]]]]]]]]]]]]; rewrite E in E'; [discriminate|].
  injection E' as <-. rewrite Sz in *. rewrite version_of_side in Fc.
  assert (Fn : is_function v y x = true).
  { unfold function_colour in Fc. unfold is_function, is_format. unfold is_dark in Fc. destruct (finder_centre v y x); [reflexivity|]. destruct (align_centre v y x); [reflexivity|].
    destruct (is_timing y x); [reflexivity|]. destruct (is_version v y x); [reflexivity|]. cbn [orb].
    destruct (Nat.eqb_spec y (side v - 8)), (Nat.eqb_spec x 8); cbn [andb] in Fc; try discriminate. apply orb_true_iff. right.
    destruct (Nat.leb_spec (side v - 8) y); [|lia]. rewrite orb_true_r. reflexivity. }
  specialize (Col y x Hy Hx Fn). rewrite Fc in Col. exact Col.
Qed.
Theorem C49_white_outside c x y : ~ (0 <= x < Z.of_nat (Size c) /\ 0 <= y < Z.of_nat (Size c))%Z -> Black c x y = false.
Proof.
  intros H. unfold Black. destruct (Z.leb_spec 0 x), (Z.ltb_spec x (Z.of_nat (Size c))), (Z.leb_spec 0 y), (Z.ltb_spec y (Z.of_nat (Size c))); cbn [andb]; try reflexivity. lia.
Qed.

(** C50: a damaged symbol still determines the text: if the format information and at most half the check codewords' number of
    codewords per block were changed, then no other blocks of codewords are as close. *)
Definition word (blk : list N * list N) : list N := fst blk ++ snd blk.
Definition close (c : nat) (a b : list N * list N) : Prop := length (word a) = length (word b) /\ 2 * hamming (word a) (word b) <= c.
Theorem C50_damage_is_correctable t l c r0 received candidate : Forall byteb t -> l <= 3 -> Encode t l = Ok c ->
  read_symbol (Size c) (fun y x => Black c (Z.of_nat x) (Z.of_nat y)) = Some r0 ->
  let k := ecc_per_block (rd_version r0) l in
  Forall2 (close k) received (rd_blocks r0) ->
  Forall2 (close k) received candidate -> Forall (rs_block k) candidate ->
  map word candidate = map word (rd_blocks r0).
Proof.
  intros B Hl E R0 k Cl Cc Cw. destruct (Encode_cases t l B Hl) as [[E' _]|[v [c' [dat [Hv [F [M [E' [Sz [Ld [Bd [_ [RS _]]]]]]]]]]]]]; rewrite E in E'; [discriminate|].
  injection E' as <-. rewrite Sz in R0. change (fun y x => Black c (Z.of_nat x) (Z.of_nat y)) with (black_of c) in R0. rewrite R0 in RS. injection RS as ->.
  cbn [rd_blocks rd_version] in *. destruct (tables v l Hv Hl) as [_ Ek]. assert (Hk : k = ncheck v l) by exact Ek. clearbody k. subst k.
  destruct (sizes v l Hv Hl) as [_ [_ [_ [_ Sm]]]]. pose proof (NewField_good _ _ _ QField_ok) as [G _].
  assert (Or : Forall (rs_block (ncheck v l)) (code_blocks v l dat) /\ Forall (fun blk => length (word blk) <= 255) (code_blocks v l dat)).
  { assert (Lens : Forall (fun d => length d <= S (DataBytes v l / nblock v l)) (chunks (code_lens v l) dat)).
    { destruct (code_lens_sum v l Hv Hl) as [Su _]. apply Forall_forall. intros d Hd. etransitivity; [|apply code_lens_max]. rewrite <- (chunks_lengths (code_lens v l) dat) by lia.
      apply list_max_ge. apply in_map. exact Hd. }
    unfold code_blocks. split; apply Forall_forall; intros blk Hb; apply in_map_iff in Hb; destruct Hb as [d [<- Hd]].
    - apply rem_block. apply Forall_forall. intros z Hz. rewrite Forall_forall in Bd. apply Bd. eapply chunks_incl; eassumption.
    - unfold word. cbn [fst snd]. rewrite app_length, (rem_length _ _ _ G). rewrite Forall_forall in Lens. specialize (Lens d Hd). lia. }
  destruct Or as [Or Ol]. clear R0. generalize dependent (code_blocks v l dat). intros blks Cl Or Ol. revert candidate Cc Cw Or Ol. induction Cl as [|r o rs os [L1 H1] Cl IH]; intros cand Cc Cw Or Ol.
  - inversion Cc. reflexivity.
  - inversion Cc as [|? w ? ws [L2 H2] Cc']; subst. inversion Cw as [|? ? W1 Cw']; subst. inversion Or as [|? ? O1 Or']; subst. inversion Ol as [|? ? O2 Ol']; subst.
    cbn [map]. f_equal; [|apply IH; assumption].
    destruct (list_eq_dec N.eq_dec (word w) (word o)) as [Eq|Ne]; [exact Eq|exfalso].
    destruct W1 as [_ [Wb1 [Wb2 Wh]]]. destruct O1 as [_ [Ob1 [Ob2 Oh]]].
    pose proof (codewords_far _ _ _ G (ncheck v l) (word w) (word o)) as D.
    specialize (D ltac:(lia) ltac:(lia) ltac:(apply Forall_app; auto) ltac:(apply Forall_app; auto) Wh Oh Ne).
    pose proof (hamming_triangle (word w) (word r) (word o) ltac:(lia) ltac:(lia)) as Tr. rewrite (hamming_sym (word w) (word r)) in Tr. lia.
Qed.
Fixpoint all_close (c : nat) (xs ys : list (list N * list N)) : bool :=
  match xs, ys with
  | [], [] => true
  | x :: xs', y :: ys' => (length (word x) =? length (word y)) && (2 * hamming (word x) (word y) <=? c) && all_close c xs' ys'
  | _, _ => false
  end.
Lemma all_close_ok c xs : forall ys, all_close c xs ys = true -> Forall2 (close c) xs ys.
Proof.
  induction xs as [|x xs IH]; intros [|y ys] H; cbn [all_close] in H; try discriminate; [constructor|]. rewrite !andb_true_iff, Nat.eqb_eq, Nat.leb_le in H.
  destruct H as [[H1 H2] H3]. constructor; [split; assumption|apply IH; exact H3].
Qed.
Definition damage (blk : list N * list N) : list N * list N := (map (fun _ => 0%N) (firstn 4 (fst blk)) ++ skipn 4 (fst blk), snd blk).
Definition damaged_case (t : list N) (l : nat) : bool :=
  match Encode t l with
  | Ok c => match read_symbol (Size c) (fun y x => Black c (Z.of_nat x) (Z.of_nat y)) with
            | Some r0 => all_close (ecc_per_block (rd_version r0) l) (map damage (rd_blocks r0)) (rd_blocks r0)
                         && negb (forallb (fun b => hamming (word (damage b)) (word b) =? 0) (rd_blocks r0))
            | None => false end
  | _ => false end.
Example C50_nonvacuous : damaged_case (bytes_of "WIFI") 3 = true.
Proof. vm_compute. reflexivity. Qed.
(** What the check means. *)
Lemma damaged_case_spec t l : damaged_case t l = true -> exists c r0, Encode t l = Ok c
  /\ read_symbol (Size c) (fun y x => Black c (Z.of_nat x) (Z.of_nat y)) = Some r0
  /\ Forall2 (close (ecc_per_block (rd_version r0) l)) (map damage (rd_blocks r0)) (rd_blocks r0).
Proof.
  unfold damaged_case. intros H. destruct (Encode t l) as [c| |]; try discriminate.
  destruct (read_symbol (Size c) (fun y x => Black c (Z.of_nat x) (Z.of_nat y))) as [r0|] eqn:R; [|discriminate].
  apply andb_true_iff in H. destruct H as [H _]. exists c, r0. split; [reflexivity|]. split; [exact R|]. apply all_close_ok. exact H.
Qed.

Print Assumptions C18_size_predicted.
Print Assumptions C19_bits_decode_to_text.
Print Assumptions C20_smallest_version.
Print Assumptions C20_error_iff_no_version_fits.
Print Assumptions C21_padding_and_check_bytes.
Print Assumptions C22_plan_layout.
Print Assumptions C22_versions_outside_refused.
Print Assumptions C23_reader_recovers_text.
Print Assumptions C23_plan_encode.
Print Assumptions C23_plan_refuses.
Print Assumptions C49_function_patterns.
Print Assumptions C49_white_outside.
Print Assumptions C50_damage_is_correctable.
