(** * Facts about the fixed part of the plan, computed for the 40 versions (and 4 levels, 8 masks). *)
From Coq Require Import String.
From Coq Require Import NArith ZArith Arith List Bool Lia.
From Verif Require Import Utf8 Gf256Model Gf256Spec Gf256Proofs QrVtab QrModel QrSpec QrBits QrCheck QrInter QrPlan.
Import ListNotations.
Open Scope nat_scope.

Lemma forallb_seq p a n : forallb p (seq a n) = true -> forall k, a <= k < a + n -> p k = true.
Proof. rewrite forallb_forall. intros H k Hk. apply H. apply in_seq. exact Hk. Qed.

(** ** Function modules *)
Definition is_none {A} (o : option A) : bool := match o with None => true | _ => false end.
Definition cell_ok (v y x : nat) (p : Pixel) : bool :=
  if is_function v y x
  then negb (is_free p) && negb (maskable p) && match function_colour v y x with Some b => eqb b (black p) | None => true end
  else is_free p.
Fixpoint row_ok (v y x : nat) (r : list Pixel) : bool := match r with [] => true | p :: r' => cell_ok v y x p && row_ok v y (S x) r' end.
Fixpoint rows_ok (v y : nat) (g : Grid) : bool := match g with [] => true | r :: g' => row_ok v y 0 r && rows_ok v (S y) g' end.
Definition static_ok (v : nat) : bool :=
  match vplan v with
  | None => false
  | Some g0 =>
      (length g0 =? side v) && forallb (fun r => length r =? side v) g0
      && forallb (fun w => is_none (function_colour v (Z.to_nat (fst (fst w))) (Z.to_nat (snd (fst w))))) (fplan_sets (side v) 0 0)
      && match fplan 0 0 g0 with None => false | Some g => rows_ok v 0 g end
  end.
Lemma static_all : forallb static_ok (seq 1 40) = true. Proof. vm_cast_no_check (eq_refl true). Qed.
Lemma row_ok_nth v y : forall r x k, row_ok v y x r = true -> k < length r -> cell_ok v y (x + k) (nth k r (pix NoRole false)) = true.
Proof.
  induction r as [|p r IH]; intros x k H Hk; [cbn in Hk; lia|]. cbn [row_ok] in H. apply andb_true_iff in H. destruct H as [H1 H2].
  destruct k as [|k]; cbn [nth]; [rewrite Nat.add_0_r; exact H1|]. replace (x + S k) with (S x + k) by lia. apply IH; [exact H2|cbn in Hk; lia].
Qed.
Lemma rows_ok_nth v : forall g y k, rows_ok v y g = true -> k < length g -> row_ok v (y + k) 0 (nth k g []) = true.
Proof.
  induction g as [|r g IH]; intros y k H Hk; [cbn in Hk; lia|]. cbn [rows_ok] in H. apply andb_true_iff in H. destruct H as [H1 H2].
  destruct k as [|k]; cbn [nth]; [rewrite Nat.add_0_r; exact H1|]. replace (y + S k) with (S y + k) by lia. apply IH; [exact H2|cbn in Hk; lia].
Qed.

(** ** The format bits *)
Lemma fplan_positions siz l m : map fst (fplan_sets siz l m) = map fst (fplan_sets siz 0 0).
Proof. reflexivity. Qed.
Lemma fplan_roles siz l m : Forall (fun w => role (snd w) = Format) (fplan_sets siz l m).
Proof. unfold fplan_sets. cbn [seq flat_map app]. repeat (constructor; [reflexivity|]). constructor. Qed.
Lemma lookup_positions ws : forall ws' y x, map fst ws = map fst ws' -> (lookup ws y x = None <-> lookup ws' y x = None).
Proof.
  induction ws as [|w ws IH]; intros [|w' ws'] y x E; cbn in E; try discriminate; [tauto|]. inversion E as [[E1 E2]]. cbn [lookup].
  specialize (IH ws' y x E2). rewrite E1. destruct (lookup ws y x), (lookup ws' y x); try tauto; try (split; discriminate || (intros X; exfalso; now apply IH in X)).
  - split; [discriminate|]. intros X. exfalso. destruct IH as [_ IH]. discriminate (IH eq_refl).
  - split; [|discriminate]. intros X. exfalso. destruct IH as [IH _]. discriminate (IH eq_refl).
  - destruct ((fst (fst w') =? Z.of_nat y)%Z && (snd (fst w') =? Z.of_nat x)%Z); split; congruence.
Qed.
Lemma lookup_in ws : forall y x p, lookup ws y x = Some p -> In (Z.of_nat y, Z.of_nat x, p) ws.
Proof.
  induction ws as [|[[a b] q] ws IH]; intros y x p H; [discriminate|]. cbn [lookup fst snd] in H. destruct (lookup ws y x) as [q'|] eqn:E.
  - inversion H; subst. right. apply IH. exact E.
  - destruct (Z.eqb_spec a (Z.of_nat y)), (Z.eqb_spec b (Z.of_nat x)); cbn [andb] in H; try discriminate. inversion H; subst. left. reflexivity.
Qed.
Definition fmt_black (v l m : nat) (y x : nat) : bool := match lookup (fplan_sets (side v) l m) y x with Some p => black p | None => false end.
Definition fmt_ok (v l m : nat) : bool :=
  match read_format (side v) (fmt_black v l m) with Some (l', m') => (l' =? l) && (m' =? m) | None => false end
  && forallb (fun i => let c1 := format_cell1 i in let c2 := format_cell2 (side v) i in
        negb (is_none (lookup (fplan_sets (side v) l m) (fst c1) (snd c1))) && negb (is_none (lookup (fplan_sets (side v) l m) (fst c2) (snd c2)))) (seq 0 15).
Lemma fmt_all : forallb (fun v => forallb (fun l => forallb (fmt_ok v l) (seq 0 8)) (seq 0 4)) (seq 1 40) = true.
Proof. vm_cast_no_check (eq_refl true). Qed.
Lemma read_format_ext n b1 b2 : (forall i, i < 15 -> let c1 := format_cell1 i in let c2 := format_cell2 n i in
    b1 (fst c1) (snd c1) = b2 (fst c1) (snd c1) /\ b1 (fst c2) (snd c2) = b2 (fst c2) (snd c2)) -> read_format n b1 = read_format n b2.
Proof.
  intros H. unfold read_format.
  rewrite (map_ext_in (fun i => b1 (fst (format_cell1 (14 - i))) (snd (format_cell1 (14 - i)))) (fun i => b2 (fst (format_cell1 (14 - i))) (snd (format_cell1 (14 - i))))).
  2:{ intros i Hi. apply in_seq in Hi. apply (H (14 - i)). lia. }
  rewrite (map_ext_in (fun i => b1 (fst (format_cell2 n (14 - i))) (snd (format_cell2 n (14 - i)))) (fun i => b2 (fst (format_cell2 n (14 - i))) (snd (format_cell2 n (14 - i))))).
  2:{ intros i Hi. apply in_seq in Hi. apply (H (14 - i)). lia. }
  reflexivity.
Qed.

(** ** Tables *)
Lemma counts_all : forallb (fun v => let c := length (data_cells v) in (8 * vbytes (vt v) <=? c) && (c <=? 8 * vbytes (vt v) + 7)) (seq 1 40) = true.
Proof. vm_cast_no_check (eq_refl true). Qed.
Lemma data_cells_count v : 1 <= v <= 40 -> 8 * vbytes (vt v) <= length (data_cells v) <= 8 * vbytes (vt v) + 7.
Proof.
  intros Hv. pose proof (forallb_seq _ _ _ counts_all v ltac:(lia)) as H. cbv beta zeta in H. apply andb_true_iff in H. rewrite !Nat.leb_le in H. exact H.
Qed.
Lemma total_codewords_ok v : 1 <= v <= 40 -> total_codewords v = vbytes (vt v).
Proof.
  intros Hv. pose proof (data_cells_count v Hv). unfold total_codewords. symmetry. apply (Nat.div_unique _ 8 _ (length (data_cells v) - 8 * vbytes (vt v))); lia.
Qed.
Lemma tables v l : 1 <= v <= 40 -> l <= 3 -> num_blocks v l = nblock v l /\ ecc_per_block v l = ncheck v l.
Proof.
  intros Hv Hl. pose proof (all_vl_spec (fun v l => (num_blocks v l =? nblock v l) && (ecc_per_block v l =? ncheck v l)) ltac:(vm_compute; reflexivity) v l Hv Hl) as H.
  cbv beta in H. rewrite andb_true_iff, !Nat.eqb_eq in H. exact H.
Qed.
Lemma data_codewords_ok v l : 1 <= v <= 40 -> l <= 3 -> data_codewords v l = DataBytes v l.
Proof. intros Hv Hl. unfold data_codewords, DataBytes. destruct (tables v l Hv Hl) as [-> ->]. rewrite total_codewords_ok by exact Hv. reflexivity. Qed.
Lemma block_lengths_ok v l : 1 <= v <= 40 -> l <= 3 -> block_lengths v l = code_lens v l.
Proof. intros Hv Hl. unfold block_lengths, code_lens. rewrite data_codewords_ok by assumption. destruct (tables v l Hv Hl) as [-> _]. reflexivity. Qed.
Lemma mask_same m i j : m <= 7 -> Invert m i j = mask_bit m i j.
Proof. intros H. do 7 (destruct m as [|m]; [reflexivity|]). destruct m; [|lia]. unfold Invert, mask_bit. rewrite (Nat.add_comm ((i * j) mod 3)). reflexivity. Qed.

