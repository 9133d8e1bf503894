(** * C86: symbols of different texts are far apart as pictures, and a few changed modules can be put right. *)
From Coq Require Import String.
From Coq Require Import NArith ZArith Arith List Bool Lia.
From Verif Require Import Utf8 Gf256Model Gf256Spec QrModel QrSpec QrDraw QrRead QrProps QrDamageSpec QrDamage QrLevels.
Import ListNotations.
Local Open Scope nat_scope.

(** The picture of a code: row, column. *)
Definition picture (c : Code) : nat -> nat -> bool := fun y x => Black c (Z.of_nat x) (Z.of_nat y).
(** The number of check codewords in each block of the code's version at level l. *)
Definition strength (c : Code) (l : nat) : nat := ecc_per_block ((Size c - 17) / 4) l.

Local Opaque side data_cells is_function read_format format_cell1 format_cell2 placement.
(** Two different texts at the same level, in symbols of the same size: the pictures differ in more modules than there are check codewords in a block. *)
Theorem C86_far_apart : forall t1 t2 l c1 c2, Forall byteb t1 -> Forall byteb t2 -> l <= 3 -> Encode t1 l = Ok c1 -> Encode t2 l = Ok c2 -> Size c1 = Size c2 -> t1 <> t2 ->
  strength c1 l < changed (Size c1) (picture c1) (picture c2).
Proof.
  intros t1 t2 l c1 c2 B1 B2 Hl E1 E2 Sz N. destruct (encoded t1 l c1 B1 Hl E1) as [v [d1 [Hv [S1 [R1 [T1 [F1 L1]]]]]]]. destruct (encoded t2 l c2 B2 Hl E2) as [v' [d2 [Hv' [S2 [R2 [T2 [F2 L2]]]]]]].
  assert (v' = v) by (rewrite S1, S2, !side_stride in Sz; lia). subst v'. unfold strength. rewrite S1, version_of_side. change (picture c1) with (black_of c1). change (picture c2) with (black_of c2).
  destruct (reading_diff _ _ _ _ _ R1 R2 eq_refl eq_refl) as [Sh W]. eapply Nat.lt_le_trans; [|exact W]. apply far_blocks; try assumption.
  intros E. cbn [rd_blocks] in E. unfold read_text in T1, T2. rewrite R1 in T1. rewrite R2 in T2. cbn [rd_blocks rd_version rd_level] in T1, T2. rewrite E in T1. rewrite T1 in T2. injection T2 as <-. contradiction.
Qed.
Print Assumptions C86_far_apart.
(** That number, for any symbol. *)
Theorem C86_strength : forall t l c, Forall byteb t -> l <= 3 -> Encode t l = Ok c -> 7 <= strength c l <= 30.
Proof.
  intros t l c B Hl E. destruct (encoded t l c B Hl E) as [v [d [Hv [Sz _]]]]. unfold strength. rewrite Sz, version_of_side.
  assert (H : forallb (fun v => forallb (fun l => (7 <=? ecc_per_block v l) && (ecc_per_block v l <=? 30)) (seq 0 4)) (seq 1 40) = true) by (vm_compute; reflexivity).
  rewrite forallb_forall in H. specialize (H v ltac:(apply in_seq; lia)). rewrite forallb_forall in H. specialize (H l ltac:(apply in_seq; lia)). apply andb_true_iff in H. destruct H as [A1 A2]. apply Nat.leb_le in A1, A2. auto.
Qed.
Print Assumptions C86_strength.
(** So no picture is as near as half of that to both. *)
Theorem C86_unique_text : forall t1 t2 l c1 c2 pic, Forall byteb t1 -> Forall byteb t2 -> l <= 3 -> Encode t1 l = Ok c1 -> Encode t2 l = Ok c2 -> Size c1 = Size c2 ->
  2 * changed (Size c1) pic (picture c1) <= strength c1 l -> 2 * changed (Size c1) pic (picture c2) <= strength c1 l -> t1 = t2.
Proof.
  intros t1 t2 l c1 c2 pic B1 B2 Hl E1 E2 Sz H1 H2. destruct (list_eq_dec N.eq_dec t1 t2) as [E|N]; [exact E|exfalso].
  pose proof (C86_far_apart t1 t2 l c1 c2 B1 B2 Hl E1 E2 Sz N). pose proof (changed_triangle (Size c1) (picture c1) pic (picture c2)). rewrite (changed_sym _ (picture c1) pic) in *. lia.
Qed.
Print Assumptions C86_unique_text.
(** Levels too: any two symbols of the same size but of different text or level differ in at least eight modules. *)
Theorem C86_never_alike : forall t1 t2 l1 l2 c1 c2, Forall byteb t1 -> Forall byteb t2 -> l1 <= 3 -> l2 <= 3 -> Encode t1 l1 = Ok c1 -> Encode t2 l2 = Ok c2 -> Size c1 = Size c2 ->
  (t1 <> t2 -> 8 <= changed (Size c1) (picture c1) (picture c2)) /\ (l1 <> l2 -> 14 <= changed (Size c1) (picture c1) (picture c2)).
Proof.
  intros t1 t2 l1 l2 c1 c2 B1 B2 Hl1 Hl2 E1 E2 Sz.
  assert (LV : l1 <> l2 -> 14 <= changed (Size c1) (picture c1) (picture c2)).
  { intros N. destruct (encoded t1 l1 c1 B1 Hl1 E1) as [v [d1 [Hv [S1 [R1 _]]]]]. destruct (encoded t2 l2 c2 B2 Hl2 E2) as [v' [d2 [Hv' [S2 [R2 _]]]]].
    assert (v' = v) by (rewrite S1, S2, !side_stride in Sz; lia). subst v'. rewrite S1. change (picture c1) with (black_of c1). change (picture c2) with (black_of c2).
    assert (RF : forall p r, read_symbol (side v) p = Some r -> read_format (side v) p = Some (rd_level r, rd_mask r)).
    { intros p r R. unfold read_symbol in R. destruct (negb _); [discriminate|]. destruct (read_format (side v) p) as [[l m]|]; [|discriminate]. apply Some_eq in R. rewrite <- R. reflexivity. }
    apply RF in R1, R2. cbn [rd_level rd_mask] in R1, R2. exact (levels_far v _ _ l1 l2 Hv R1 R2 N). }
  split; [|exact LV]. intros N. destruct (Nat.eq_dec l1 l2) as [->|Nl]; [|specialize (LV Nl); lia].
  pose proof (C86_far_apart t1 t2 l2 c1 c2 B1 B2 Hl1 E1 E2 Sz N). pose proof (C86_strength t1 l2 c1 B1 Hl1 E1). lia.
Qed.
Print Assumptions C86_never_alike.
(** A picture with that few modules changed, none of them format information: a reader sees blocks for which there are Reed-Solomon blocks within half the number of
    check codewords, and whichever such blocks it finds, their data is the text. *)
Theorem C86_repaired : forall t l c pic, Forall byteb t -> l <= 3 -> Encode t l = Ok c -> same_format (Size c) pic (picture c) -> 2 * changed (Size c) pic (picture c) <= strength c l ->
  exists r, read_symbol (Size c) pic = Some r /\ rd_level r = l
    /\ (exists found, Forall2 (close (strength c l)) (rd_blocks r) found /\ Forall (rs_block (strength c l)) found)
    /\ forall found, Forall2 (close (strength c l)) (rd_blocks r) found -> Forall (rs_block (strength c l)) found ->
         let bits := flat_map (bits_of 8) (flat_map fst found) in read_segments (S (length bits)) (rd_version r) bits = Some t.
Proof.
  intros t l c pic B Hl E SF H. destruct (encoded t l c B Hl E) as [v [d [Hv [Sz [R [T [F L]]]]]]]. unfold strength in *. rewrite Sz, version_of_side in *. change (picture c) with (black_of c) in *.
  assert (RF : read_format (side v) pic = read_format (side v) (black_of c)).
  { Local Transparent read_format. unfold read_format. Local Opaque read_format. assert (W : forall cell, (forall i, i < 15 -> pic (fst (cell i)) (snd (cell i)) = black_of c (fst (cell i)) (snd (cell i))) ->
      map (fun i => pic (fst (cell (14 - i))) (snd (cell (14 - i)))) (seq 0 15) = map (fun i => black_of c (fst (cell (14 - i))) (snd (cell (14 - i)))) (seq 0 15)).
    { intros cell Q. apply map_ext_in. intros i _. apply Q. lia. }
    cbv zeta. rewrite (W format_cell1) by (intros i Hi; apply SF, Hi). rewrite (W (format_cell2 (side v))) by (intros i Hi; apply SF, Hi). reflexivity. }
  assert (exists r, read_symbol (side v) pic = Some r /\ rd_version r = v /\ rd_level r = l /\ rd_mask r = 0) as [r [Rr [Rv [Rl Rm]]]].
  { unfold read_symbol in *. destruct (negb _); [discriminate|]. rewrite RF. destruct (read_format (side v) (black_of c)) as [[l' m']|]; [|discriminate]. apply Some_eq in R. eexists. split; [reflexivity|]. pose proof (f_equal rd_version R) as A1. pose proof (f_equal rd_level R) as A2. pose proof (f_equal rd_mask R) as A3. cbn [rd_version rd_level rd_mask] in *. auto. }
  exists r. split; [exact Rr|]. split; [exact Rl|]. destruct (reading_diff _ _ _ _ _ Rr R ltac:(rewrite Rl; reflexivity) ltac:(rewrite Rm; reflexivity)) as [Sh W].
  cbn [rd_blocks] in *. pose proof (ws_close (ecc_per_block v l) _ _ Sh ltac:(lia)) as Cl. split; [exists (code_blocks v l d); auto|].
  intros found Cf Ff. assert (EQ : found = code_blocks v l d).
  { assert (MW : map word found = map word (code_blocks v l d)).
    { pose proof (C50_damage_is_correctable t l c _ (rd_blocks r) found B Hl E ltac:(rewrite Sz; exact R)) as P. cbv zeta in P. cbn [rd_version rd_blocks] in P. exact (P Cl Cf Ff). }
    clear - MW F Ff. cbn [rd_blocks] in F. revert MW F. generalize (code_blocks v l d). induction Ff as [|[fd fc] fs [Lc _] Ff IH]; intros [|[od oc] os] MW F; try discriminate; [reflexivity|].
    inversion F as [|? ? [Lo _] F']; subst. cbn [map] in MW. injection MW as Ew MW. f_equal; [|apply IH; assumption]. unfold word in Ew. cbn [fst snd] in *.
    assert (Ln : length fd = length od) by (apply (f_equal (@length N)) in Ew; rewrite !app_length in Ew; lia). clear - Ew Ln. revert od Ln Ew. induction fd as [|z fd IH]; intros [|z' od] Ln Ew; try discriminate; [cbn in Ew; subst; reflexivity|].
    cbn [app] in Ew. injection Ew as -> Ew. injection Ln as Ln. specialize (IH od Ln Ew). congruence. }
  subst found. rewrite Rv. unfold read_text in T. rewrite R in T. cbn [rd_blocks rd_version rd_level] in T. cbv zeta. destruct (read_segments _ v _) as [t'|]; [|discriminate]. cbn [option_map] in T. injection T as ->. reflexivity.
Qed.
Print Assumptions C86_repaired.

(** Two texts that differ in the last letter only, and a scratch of six modules across the first. *)
Definition scratched (c : Code) : nat -> nat -> bool := fun y x => xorb (picture c y x) ((y =? 10) && (9 <=? x) && (x <? 15)).
Example C86_case : match Encode (bytes_of "HELLO WORLD") 2, Encode (bytes_of "HELLO WORLE") 2 with
  | Ok c1, Ok c2 => Size c1 = 21 /\ Size c2 = 21 /\ strength c1 2 = 13 /\ changed 21 (picture c1) (picture c2) = 52
      /\ changed 21 (scratched c1) (picture c1) = 6 /\ same_format 21 (scratched c1) (picture c1)
  | _, _ => False end.
Proof.
  destruct (Encode (bytes_of "HELLO WORLD") 2) as [c1| |] eqn:E1; [|vm_compute in E1; discriminate E1..]. destruct (Encode (bytes_of "HELLO WORLE") 2) as [c2| |] eqn:E2; [|vm_compute in E2; discriminate E2..].
  vm_compute in E1. vm_compute in E2. injection E1 as <-. injection E2 as <-.
  split; [reflexivity|]. split; [reflexivity|]. split; [vm_compute; reflexivity|]. split; [vm_compute; reflexivity|]. split; [vm_compute; reflexivity|].
  intros i H. do 15 (destruct i as [|i]; [vm_compute; split; reflexivity|]). lia.
Qed.
