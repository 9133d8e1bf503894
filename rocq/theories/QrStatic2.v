(** * The plan before masking: function modules, then codeword pixels in placement order. *)
From Coq Require Import String.
From Coq Require Import NArith ZArith Arith List Bool Lia.
From Verif Require Import Utf8 Gf256Model Gf256Spec Gf256Proofs QrVtab QrModel QrSpec QrBits QrCheck QrInter QrPlan QrStatic.
Import ListNotations.
Open Scope nat_scope.

Lemma data_cells_eq v : data_cells v = filter (fun p => negb (is_function v (fst p) (snd p))) (placement (side v)). Proof. reflexivity. Qed.
Lemma fmt_black_eq v l m y x : fmt_black v l m y x = match lookup (fplan_sets (side v) l m) y x with Some p => black p | None => false end. Proof. reflexivity. Qed.
Local Opaque side vplan fplan_sets lookup is_function function_colour data_cells placement read_format fmt_black format_cell1 format_cell2 format_bits lplan_bits.
Definition src_of (px : list Pixel) : list Pixel := px ++ repeat (pix RExtra false) 7.
Theorem plan_ok v l m : 1 <= v <= 40 -> l <= 3 -> m <= 7 ->
  exists px g, lplan_bits v l = Some px
    /\ NewPlan v l m = Some {| p_version := v; p_level := l; p_mask := m; p_DataBytes := DataBytes v l;
                               p_CheckBytes := ncheck v l * nblock v l; p_Blocks := nblock v l; p_Pixel := mplan m g |}
    /\ wf (side v) g
    /\ map (fun c => cell g (fst c) (snd c)) (data_cells v) = firstn (length (data_cells v)) (src_of px)
    /\ (forall y x, y < side v -> x < side v -> is_function v y x = true ->
          maskable (cell g y x) = false
          /\ match function_colour v y x with Some b => black (cell g y x) = b | None => True end)
    /\ read_format (side v) (fun y x => black (cell g y x)) = Some (l, m)
    /\ (forall i, i < 15 -> is_function v (fst (format_cell1 i)) (snd (format_cell1 i)) = true
          /\ is_function v (fst (format_cell2 (side v) i)) (snd (format_cell2 (side v) i)) = true).
Proof.
  intros Hv Hl Hm. pose proof (forallb_seq _ _ _ static_all v ltac:(lia)) as St. unfold static_ok in St.
  destruct (vplan v) as [g0|] eqn:E0; [|discriminate]. destruct (fplan 0 0 g0) as [g00|] eqn:E00; [|rewrite andb_false_r in St; discriminate].
  rewrite !andb_true_iff in St. destruct St as [[[S1 S2] S3] S4]. apply Nat.eqb_eq in S1.
  assert (W0 : wf (side v) g0).
  { split; [exact S1|]. rewrite forallb_forall in S2. apply Forall_forall. intros r Hr. apply Nat.eqb_eq. apply S2. exact Hr. }
  unfold fplan in E00. rewrite S1 in E00. pose proof (sets_range _ _ _ _ W0 E00) as R0.
  assert (R : Forall (in_range (side v)) (fplan_sets (side v) l m)).
  { apply Forall_forall. intros w Hw. unfold in_range. apply (in_map fst) in Hw. rewrite fplan_positions in Hw. apply in_map_iff in Hw. destruct Hw as [w' [<- Hw']].
    rewrite Forall_forall in R0. apply R0. exact Hw'. }
  destruct (sets_ok _ _ g0 W0 R0) as [h0 [X0 [Wh0 C0]]]. rewrite E00 in X0. inversion X0; subst h0; clear X0.
  destruct (sets_ok _ _ g0 W0 R) as [g1 [E1 [W1 C1]]].
  pose proof (forallb_seq _ _ _ (forallb_seq _ _ _ (forallb_seq _ _ _ fmt_all v ltac:(lia)) l ltac:(lia)) m ltac:(lia)) as Fm.
  unfold fmt_ok in Fm. apply andb_true_iff in Fm. destruct Fm as [Fm1 Fm2].
  (* cells of g1 *)
  assert (CO : forall y x, y < side v -> x < side v -> cell_ok v y x (cell g00 y x) = true).
  { intros y x Hy Hx. pose proof (wf_row _ _ _ Wh0 Hy) as LR. destruct Wh0 as [LG _]. unfold cell. apply (row_ok_nth v y _ 0); [|lia]. apply (rows_ok_nth v _ 0); [exact S4|lia]. }
  assert (FR : forall y x, y < side v -> x < side v -> is_free (cell g1 y x) = negb (is_function v y x)
     /\ (is_function v y x = true -> maskable (cell g1 y x) = false /\ match function_colour v y x with Some b => black (cell g1 y x) = b | None => True end)).
  { intros y x Hy Hx. specialize (CO y x Hy Hx). rewrite C0 in CO. rewrite C1. unfold cell_ok in CO.
    destruct (lookup (fplan_sets (side v) l m) y x) as [p|] eqn:Lk.
    - assert (Rp : role p = Format). { apply lookup_in in Lk. pose proof (fplan_roles (side v) l m) as FRo. rewrite Forall_forall in FRo. exact (FRo _ Lk). }
      assert (Lk0 : exists p0, lookup (fplan_sets (side v) 0 0) y x = Some p0).
      { destruct (lookup (fplan_sets (side v) 0 0) y x) eqn:E; [eauto|]. apply (lookup_positions _ _ y x (fplan_positions (side v) l m)) in E. congruence. }
      destruct Lk0 as [p0 Lk0]. rewrite Lk0 in CO. pose proof (lookup_in _ _ _ _ Lk0) as I0.
      assert (Rp0 : role p0 = Format). { pose proof (fplan_roles (side v) 0 0) as FRo. rewrite Forall_forall in FRo. exact (FRo _ I0). }
      unfold is_free in *. rewrite Rp0 in CO. rewrite Rp. destruct (is_function v y x) eqn:Fn; [|discriminate]. split; [reflexivity|]. intros _.
      unfold maskable. rewrite Rp. split; [reflexivity|]. rewrite forallb_forall in S3. specialize (S3 _ I0). cbn [fst snd] in S3. rewrite !Nat2Z.id in S3.
      destruct (function_colour v y x); [discriminate|exact I].
    - assert (Lk0 : lookup (fplan_sets (side v) 0 0) y x = None) by (apply (lookup_positions _ _ y x (fplan_positions (side v) l m)); exact Lk).
      rewrite Lk0 in CO. destruct (is_function v y x).
      + rewrite !andb_true_iff, !negb_true_iff in CO. destruct CO as [[CO1 CO2] CO3]. split; [exact CO1|]. intros _. split; [exact CO2|].
        destruct (function_colour v y x) as [b|]; [|exact I]. apply eqb_prop in CO3. auto.
      + split; [exact CO|]. discriminate. }
  (* the sweep *)
  destruct (lplan_bits_ok v l Hv Hl) as [px [Ep [Lp _]]].
  assert (FD : filter (gfree g1) (placement (side v)) = data_cells v).
  { rewrite data_cells_eq. apply filter_ext_in. intros [y x] Hc. pose proof (placement_lt v ltac:(lia)) as PL. rewrite Forall_forall in PL. destruct (PL _ Hc) as [Hy Hx].
    unfold gfree. cbn [fst snd] in *. apply FR; assumption. }
  pose proof (data_cells_count v Hv) as DC.
  assert (Lsrc : length (src_of px) = 8 * vbytes (vt v) + 7) by (unfold src_of; rewrite app_length, repeat_length, Lp; reflexivity).
  destruct (fill_ok (side v) (placement (side v)) g1 (src_of px) W1 (placement_NoDup v ltac:(lia)) (placement_lt v ltac:(lia)) ltac:(rewrite FD; lia)) as [g2 [E2 [W2 [K1 K2]]]].
  rewrite FD in E2, K1, K2.
  assert (FS : forall y x, y < side v -> x < side v -> is_function v y x = true -> cell g2 y x = cell g1 y x).
  { intros y x Hy Hx Fn. apply K1. intros X. rewrite data_cells_eq in X. apply filter_In in X. destruct X as [_ X]. cbn [fst snd] in X. rewrite Fn in X. discriminate. }
  assert (FC : forall i, i < 15 -> let c1 := format_cell1 i in let c2 := format_cell2 (side v) i in
     (lookup (fplan_sets (side v) l m) (fst c1) (snd c1) <> None) /\ (lookup (fplan_sets (side v) l m) (fst c2) (snd c2) <> None)).
  { intros i Hi c1 c2. rewrite forallb_forall in Fm2. specialize (Fm2 i ltac:(apply in_seq; lia)). cbv beta zeta in Fm2. fold c1 c2 in Fm2.
    apply andb_true_iff in Fm2. destruct Fm2 as [F1 F2]. split; intros X; rewrite X in *; discriminate. }
  assert (FL : forall y x, lookup (fplan_sets (side v) l m) y x <> None -> y < side v /\ x < side v /\ is_function v y x = true
      /\ black (cell g2 y x) = fmt_black v l m y x).
  { intros y x Hn. destruct (lookup (fplan_sets (side v) l m) y x) as [p|] eqn:Lk; [|congruence]. pose proof (lookup_in _ _ _ _ Lk) as I1.
    rewrite Forall_forall in R. destruct (R _ I1) as [Ry Rx]. cbn [fst snd] in Ry, Rx.
    assert (Hy : y < side v) by lia. assert (Hx : x < side v) by lia.
    assert (Fn : is_function v y x = true).
    { destruct (FR y x Hy Hx) as [Q _]. rewrite C1, Lk in Q. pose proof (fplan_roles (side v) l m) as FRo. rewrite Forall_forall in FRo. specialize (FRo _ I1). cbn [snd] in FRo.
      unfold is_free in Q. rewrite FRo in Q. destruct (is_function v y x); [reflexivity|discriminate]. }
    repeat split; auto. rewrite FS by assumption. rewrite C1. rewrite fmt_black_eq. rewrite Lk. reflexivity. }
  exists px, g2. split; [exact Ep|]. split.
  { unfold NewPlan. rewrite E0. unfold fplan. rewrite S1, E1. unfold lplan. rewrite Ep, (proj1 W1). rewrite sweep_fold, sweep_placement by exact Hv.
    fold (src_of px). rewrite E2. unfold DataBytes. rewrite (Nat.mul_comm (nblock v l)). reflexivity. }
  split; [exact W2|]. split; [exact K2|]. split.
  { intros y x Hy Hx Fn. rewrite FS by assumption. apply FR; assumption. }
  split.
  - rewrite (read_format_ext _ _ (fmt_black v l m)).
    + destruct (read_format (side v) (fmt_black v l m)) as [[l' m']|]; [|discriminate]. apply andb_true_iff in Fm1. rewrite !Nat.eqb_eq in Fm1. destruct Fm1 as [-> ->]. reflexivity.
    + intros i Hi c1 c2. destruct (FC i Hi) as [N1 N2]. split; [apply (FL _ _ N1)|apply (FL _ _ N2)].
  - intros i Hi. destruct (FC i Hi) as [N1 N2]. split; [apply (FL _ _ N1)|apply (FL _ _ N2)].
Qed.
