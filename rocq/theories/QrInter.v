(** * Interleaving of the blocks: the pixels of lplan in symbol order, and the standard's deinterleaving. *)
From Coq Require Import String.
From Coq Require Import NArith ZArith Arith List Bool Lia Permutation.
From Verif Require Import Utf8 Gf256Model Gf256Spec QrVtab QrModel QrSpec QrBits QrCheck.
Import ListNotations.
Open Scope nat_scope.

(** ** chunks and split_blocks *)
Lemma chunks_map {A B} (f : A -> B) lens : forall l, chunks lens (map f l) = map (map f) (chunks lens l).
Proof. induction lens as [|n lens IH]; intros l; cbn [chunks map]; [reflexivity|]. rewrite firstn_map, skipn_map, IH. reflexivity. Qed.
Section Eights.
  Context {A B : Type} (f : A -> list B) (Hf : forall a, length (f a) = 8).
  Lemma firstn_eights n bs : firstn (8 * n) (flat_map f bs) = flat_map f (firstn n bs).
  Proof.
    revert bs. induction n as [|n IH]; intros bs; [reflexivity|]. destruct bs as [|b bs]; [apply firstn_nil|].
    cbn [flat_map firstn]. replace (8 * S n) with (length (f b) + 8 * n) by (rewrite Hf; lia).
    rewrite firstn_app_2, IH. reflexivity.
  Qed.
  Lemma skipn_eights n bs : skipn (8 * n) (flat_map f bs) = flat_map f (skipn n bs).
  Proof.
    revert bs. induction n as [|n IH]; intros bs; [reflexivity|]. destruct bs as [|b bs]; [apply skipn_nil|].
    cbn [flat_map skipn]. replace (8 * S n) with (8 * n + 8) by lia. rewrite skipn_app, Hf.
    rewrite skipn_all2 by (rewrite Hf; lia). replace (8 * n + 8 - 8) with (8 * n) by lia. apply IH.
  Qed.
  Lemma chunks_eights lens : forall bs, chunks (map (Nat.mul 8) lens) (flat_map f bs) = map (flat_map f) (chunks lens bs).
  Proof. induction lens as [|n lens IH]; intros bs; [reflexivity|]. cbn [chunks map]. rewrite firstn_eights, skipn_eights, IH. reflexivity. Qed.
End Eights.
Lemma firstn_flat n bs : firstn (8 * n) (flat bs) = flat (firstn n bs).
Proof. apply firstn_eights. apply bits_of_length. Qed.
Lemma skipn_flat n bs : skipn (8 * n) (flat bs) = flat (skipn n bs).
Proof. apply skipn_eights. apply bits_of_length. Qed.
Lemma chunks_flat lens bs : chunks (map (Nat.mul 8) lens) (flat bs) = map (flat_map (bits_of 8)) (chunks lens bs).
Proof. apply chunks_eights. apply bits_of_length. Qed.
Lemma chunks_lengths {A} lens : forall l : list A, list_sum lens <= length l -> map (@length A) (chunks lens l) = lens.
Proof.
  induction lens as [|n lens IH]; intros l H; [reflexivity|]. change (list_sum (n :: lens)) with (n + list_sum lens) in H.
  cbn [chunks map]. rewrite firstn_length, IH by (rewrite skipn_length; lia). f_equal. lia.
Qed.
Lemma chunks_concat {A} lens : forall l : list A, list_sum lens = length l -> concat (chunks lens l) = l.
Proof.
  induction lens as [|n lens IH]; intros l H.
  - destruct l; [reflexivity|discriminate].
  - change (list_sum (n :: lens)) with (n + list_sum lens) in H. cbn [chunks concat]. rewrite IH by (rewrite skipn_length; lia). apply firstn_skipn.
Qed.
Lemma split_blocks_ok {A} nb extra nde todo : forall i (l : list A),
  8 * list_sum (lens_from nb extra nde i todo) <= length l ->
  split_blocks todo i nb nde extra l
  = Some (chunks (map (Nat.mul 8) (lens_from nb extra nde i todo)) l, skipn (8 * list_sum (lens_from nb extra nde i todo)) l).
Proof.
  induction todo as [|t IH]; intros i l H; [reflexivity|]. cbn [split_blocks].
  assert (EL : lens_from nb extra nde i (S t) = (if nb - extra <=? i then S nde else nde) :: lens_from nb extra nde (S i) t) by reflexivity.
  rewrite EL in *. set (n := if nb - extra <=? i then S nde else nde) in *. set (ls := lens_from nb extra nde (S i) t) in *.
  change (list_sum (n :: ls)) with (n + list_sum ls) in *. destruct (Nat.ltb_spec (length l) (n * 8)); [lia|].
  rewrite IH by (rewrite skipn_length; unfold ls in *; lia). fold ls. cbn [chunks map]. 
  assert (SS : forall x y (l : list A), skipn x (skipn y l) = skipn (y + x) l).
  { clear. intros x y. induction y as [|y IH]; intros l; [reflexivity|]. destruct l; [rewrite !skipn_nil; reflexivity|]. cbn. apply IH. }
  rewrite SS. replace (n * 8 + 8 * list_sum ls) with (8 * (n + list_sum ls)) by lia. rewrite (Nat.mul_comm n 8). reflexivity.
Qed.

(** ** Round robin *)
Definition row {A} (i : nat) (bs : list (list A)) : list A := flat_map (fun b => firstn 1 (skipn i b)) bs.
Definition rr_from {A} (i n : nat) (bs : list (list A)) : list A := flat_map (fun j => row j bs) (seq i n).
Definition rr {A} (n : nat) (bs : list (list A)) : list A := rr_from 0 n bs.
Lemma map_flat_map {A B C} (f : B -> C) (g : A -> list B) l : map f (flat_map g l) = flat_map (fun a => map f (g a)) l.
Proof. induction l as [|a l IH]; [reflexivity|]. cbn. rewrite map_app, IH. reflexivity. Qed.
Lemma flat_map_map {A B C} (f : A -> B) (g : B -> list C) l : flat_map g (map f l) = flat_map (fun a => g (f a)) l.
Proof. induction l as [|a l IH]; [reflexivity|]. cbn. rewrite IH. reflexivity. Qed.
Lemma flat_map_flat_map {A B C} (g : A -> list B) (f : B -> list C) l : flat_map f (flat_map g l) = flat_map (fun a => flat_map f (g a)) l.
Proof. induction l as [|a l IH]; [reflexivity|]. cbn. rewrite flat_map_app, IH. reflexivity. Qed.
Lemma rounds_map {A B} (f : A -> B) n bs : map f (rounds n bs) = rounds n (map (map f) bs).
Proof.
  unfold rounds. rewrite map_flat_map. apply flat_map_ext. intros i. rewrite map_flat_map, flat_map_map. apply flat_map_ext. intros b.
  rewrite map_length. destruct (i * 8 <? length b); [|reflexivity]. rewrite skipn_map, firstn_map. reflexivity.
Qed.
Lemma rounds_eights {A B} (f : A -> list B) n bs : (forall a, length (f a) = 8) -> rounds n (map (flat_map f) bs) = flat_map f (rr n bs).
Proof.
  intros Hf. unfold rounds, rr, rr_from, row. rewrite flat_map_flat_map. apply flat_map_ext. intros i. rewrite flat_map_map, flat_map_flat_map.
  apply flat_map_ext. intros b. rewrite <- (firstn_eights f Hf), <- (skipn_eights f Hf). rewrite (Nat.mul_comm i 8).
  destruct (Nat.ltb_spec (8 * i) (length (flat_map f b))) as [H|H]; [reflexivity|]. rewrite (skipn_all2 (flat_map f b)) by exact H. rewrite firstn_nil. reflexivity.
Qed.
Lemma rounds_flat n bs : rounds n (map (flat_map (bits_of 8)) bs) = flat (rr n bs).
Proof. apply rounds_eights. apply bits_of_length. Qed.
Lemma one_more {A} i (b : list A) : firstn 1 (skipn i b) ++ skipn (S i) b = skipn i b.
Proof.
  revert b. induction i as [|i IH]; intros b; [apply firstn_skipn|]. destruct b; [reflexivity|]. apply IH.
Qed.
Lemma deal_row {A} i (bs : list (list A)) rest : deal i (map (@length A) bs) (row i bs ++ rest) = (map (fun b => firstn 1 (skipn i b)) bs, rest).
Proof.
  induction bs as [|b bs IH]; [reflexivity|]. cbn [map deal row flat_map]. fold (row i bs).
  destruct (Nat.ltb_spec i (length b)) as [H|H].
  - destruct (skipn i b) as [|x y] eqn:E; [apply (f_equal (@length A)) in E; rewrite skipn_length in E; cbn in E; lia|].
    cbn [firstn app]. rewrite IH. reflexivity.
  - rewrite skipn_all2 by exact H. cbn [firstn app]. rewrite IH. reflexivity.
Qed.
Lemma zip_app_map {A B} (f g : B -> list A) bs : zip_app (map f bs) (map g bs) = map (fun b => f b ++ g b) bs.
Proof. induction bs as [|b bs IH]; [reflexivity|]. cbn. rewrite IH. reflexivity. Qed.
Lemma deinterleave_rr {A} n : forall i (bs : list (list A)) rest, Forall (fun b => length b <= i + n) bs ->
  deinterleave n i (map (@length A) bs) (rr_from i n bs ++ rest) = map (skipn i) bs.
Proof.
  induction n as [|n IH]; intros i bs rest F.
  - cbn [deinterleave]. rewrite map_map. apply map_ext_in. intros b Hb. rewrite Forall_forall in F. specialize (F b Hb). rewrite skipn_all2 by lia. reflexivity.
  - cbn [deinterleave]. unfold rr_from. cbn [seq flat_map]. fold (rr_from (S i) n bs). rewrite <- app_assoc, deal_row, IH.
    + rewrite zip_app_map. apply map_ext. intros b. apply one_more.
    + eapply Forall_impl; [|exact F]. cbv beta. intros. lia.
Qed.
Lemma row_nil {A} i (bs : list (list A)) : Forall (fun b => length b <= i) bs -> row i bs = [].
Proof. induction 1 as [|b bs H _ IH]; [reflexivity|]. unfold row in *. cbn [flat_map]. rewrite IH, skipn_all2 by exact H. reflexivity. Qed.
Lemma rr_more {A} k n (bs : list (list A)) : Forall (fun b => length b <= n) bs -> rr (n + k) bs = rr n bs.
Proof.
  intros F. unfold rr, rr_from. rewrite seq_app, flat_map_app. rewrite <- app_nil_r. f_equal. cbn [Nat.add].
  assert (G : forall m, n <= m -> flat_map (fun j => row j bs) (seq m k) = []).
  { induction k as [|k IH]; intros m Hm; [reflexivity|]. cbn [seq flat_map]. rewrite IH by lia. rewrite row_nil; [reflexivity|].
    eapply Forall_impl; [|exact F]. cbv beta. intros. lia. }
  apply G. lia.
Qed.
Lemma list_max_ge l : forall x, In x l -> x <= list_max l.
Proof. intros x H. assert (F := proj1 (list_max_le l (list_max l)) (le_n _)). rewrite Forall_forall in F. apply F. exact H. Qed.
Lemma blocks_of_rr {A} n (bs : list (list A)) lens : map (@length A) bs = lens -> list_max lens <= n -> blocks_of lens (rr n bs) = bs.
Proof.
  intros <- H. unfold blocks_of. assert (F : Forall (fun b => length b <= list_max (map (@length A) bs)) bs).
  { apply Forall_forall. intros b Hb. apply list_max_ge. apply in_map. exact Hb. }
  replace n with (list_max (map (@length A) bs) + (n - list_max (map (@length A) bs))) by lia. rewrite rr_more by exact F.
  rewrite <- (app_nil_r (rr _ bs)). unfold rr. rewrite deinterleave_rr by exact F. rewrite <- (map_id bs) at 2. apply map_ext. reflexivity.
Qed.
Lemma list_sum_cons x l : list_sum (x :: l) = x + list_sum l. Proof. reflexivity. Qed.
Lemma rr_length {A} n : forall i (bs : list (list A)), Forall (fun b => length b <= i + n) bs ->
  length (rr_from i n bs) = list_sum (map (fun b => length b - i) bs).
Proof.
  induction n as [|n IH]; intros i bs F.
  - cbn. induction F as [|b bs H F IH]; [reflexivity|]. cbn [map list_sum fold_right]. unfold list_sum in IH. rewrite <- IH. lia.
  - unfold rr_from. cbn [seq flat_map]. fold (rr_from (S i) n bs). rewrite app_length, IH.
    2:{ eapply Forall_impl; [|exact F]. cbv beta. intros. lia. }
    clear. induction bs as [|b bs IH]; [reflexivity|]. unfold row in *. cbn [map flat_map]. rewrite app_length, firstn_length, skipn_length.
    rewrite !list_sum_cons. lia.
Qed.

(** ** The pixels of lplan in symbol order *)
Lemma nth_error_flat bs : forall o, bit_at bs o = nth_error (flat bs) o.
Proof.
  unfold bit_at. induction bs as [|b bs IH]; intros o.
  - destruct (o / 8); destruct o; reflexivity.
  - cbn [flat_map]. destruct (Nat.lt_ge_cases o 8) as [H|H].
    + rewrite nth_error_app1 by (rewrite bits_of_length; exact H). rewrite Nat.div_small, Nat.mod_small by exact H.
      do 8 (destruct o as [|o]; [reflexivity|]). lia.
    + rewrite nth_error_app2 by (rewrite bits_of_length; exact H). rewrite bits_of_length, <- IH.
      assert (E1 : o / 8 = S ((o - 8) / 8)) by (replace (o / 8) with (((o - 8) + 1 * 8) / 8) by (f_equal; lia); rewrite Nat.div_add by lia; lia).
      assert (E2 : o mod 8 = (o - 8) mod 8) by (replace (o mod 8) with (((o - 8) + 1 * 8) mod 8) by (f_equal; lia); apply Nat.mod_add; lia).
      rewrite E1, E2. reflexivity.
Qed.
Lemma map_nth_seq {A} (l : list A) n : forall a, a + n <= length l -> map (nth_error l) (seq a n) = map Some (firstn n (skipn a l)).
Proof.
  induction n as [|n IH]; intros a H; [reflexivity|]. cbn [seq map]. rewrite IH by lia.
  destruct (skipn a l) as [|x y] eqn:E; [apply (f_equal (@length A)) in E; rewrite skipn_length in E; cbn in E; lia|].
  cbn [firstn map]. assert (E' : skipn (S a) l = y).
  { revert E. clear. revert l. induction a as [|a IH]; intros [|z l] E; cbn in *; try discriminate; [congruence|]. apply IH. exact E. }
  assert (E2 : nth_error l a = Some x).
  { revert E. clear. revert l. induction a as [|a IH]; intros [|z l] E; cbn in *; try discriminate; [congruence|]. apply IH. exact E. }
  rewrite E', E2. reflexivity.
Qed.
Definition is_code (p : Pixel) : Prop := (role p = RData \/ role p = RCheck) /\ black p = false /\ invert p = false.
Lemma rounds_incl {A} n (bs : list (list A)) x : In x (rounds n bs) -> exists b, In b bs /\ In x b.
Proof.
  unfold rounds. intros H. apply in_flat_map in H. destruct H as [i [_ H]]. apply in_flat_map in H. destruct H as [b [Hb H]]. exists b. split; [exact Hb|].
  destruct (i * 8 <? length b); [|destruct H]. rewrite <- (firstn_skipn (i * 8) b). apply in_or_app. right.
  rewrite <- (firstn_skipn 8 (skipn (i * 8) b)). apply in_or_app. left. exact H.
Qed.
Lemma chunks_incl {A} lens : forall (l : list A) b x, In b (chunks lens l) -> In x b -> In x l.
Proof.
  induction lens as [|n lens IH]; intros l b x H Hx; [destruct H|]. cbn [chunks] in H. rewrite <- (firstn_skipn n l). apply in_or_app.
  destruct H as [<-|H]; [left; exact Hx|right; eapply IH; eassumption].
Qed.
Definition check_lens (v l : nat) : list nat := repeat (ncheck v l) (nblock v l).
Definition symbol_order {A} (v l : nat) (dat chk : list A) : list A :=
  rr (S (DataBytes v l / nblock v l)) (chunks (code_lens v l) dat) ++ rr (ncheck v l) (chunks (check_lens v l) chk).
Lemma code_lens_max v l : list_max (code_lens v l) <= S (DataBytes v l / nblock v l).
Proof.
  apply list_max_le. unfold code_lens. apply Forall_app. split; apply Forall_forall; intros x H; apply repeat_spec in H; lia.
Qed.
Lemma check_lens_max v l : list_max (check_lens v l) <= ncheck v l.
Proof. apply list_max_le. apply Forall_forall. intros x H. apply repeat_spec in H. lia. Qed.
Lemma symbol_order_length {A} v l (dat chk : list A) : 1 <= v <= 40 -> l <= 3 -> length dat = DataBytes v l -> length chk = nblock v l * ncheck v l ->
  length (symbol_order v l dat chk) = vbytes (vt v).
Proof.
  intros Hv Hl Ld Lc. destruct (code_lens_sum v l Hv Hl) as [Su _]. destruct (sizes v l Hv Hl) as [_ [_ [T _]]].
  assert (Lens : forall n (bs : list (list A)) lens, map (@length A) bs = lens -> list_max lens <= n -> length (rr n bs) = list_sum lens).
  { intros n bs lens <- H. unfold rr. rewrite rr_length.
    - f_equal. apply map_ext. intros b. lia.
    - apply Forall_forall. intros b Hb. cbn [Nat.add]. etransitivity; [|exact H]. apply list_max_ge. apply in_map. exact Hb. }
  unfold symbol_order. rewrite app_length.
  rewrite (Lens _ _ (code_lens v l)) by (try apply code_lens_max; apply chunks_lengths; lia).
  rewrite (Lens _ _ (check_lens v l)).
  - rewrite Su. unfold check_lens. rewrite list_sum_repeat. unfold DataBytes. lia.
  - apply chunks_lengths. unfold check_lens. rewrite list_sum_repeat. lia.
  - apply check_lens_max.
Qed.
Theorem lplan_bits_ok v l : 1 <= v <= 40 -> l <= 3 ->
  exists px, lplan_bits v l = Some px /\ length px = 8 * vbytes (vt v) /\ Forall is_code px
    /\ forall dat chk, length dat = DataBytes v l -> length chk = nblock v l * ncheck v l ->
         map (fun p => bit_at (dat ++ chk) (offset p)) px = map Some (flat (symbol_order v l dat chk)).
Proof.
  intros Hv Hl. destruct (sizes v l Hv Hl) as [N1 [C1 [T _]]]. destruct (code_lens_sum v l Hv Hl) as [Su _].
  unfold lplan_bits.
  replace (vbytes (vt v) - ncheck v l * nblock v l) with (DataBytes v l) by (unfold DataBytes; lia).
  set (nb := nblock v l) in *. set (ne := ncheck v l) in *. set (nd := DataBytes v l) in *.
  replace (nd / nb * nb + nd mod nb) with nd by (rewrite (Nat.div_mod nd nb) at 1 by lia; lia).
  set (data := map (opix RData) (seq 0 (nd * 8))). set (check := map (opix RCheck) (seq (nd * 8) (ne * nb * 8))).
  assert (LF : lens_from nb (nd mod nb) (nd / nb) 0 nb = code_lens v l) by (apply lens_from_spec; apply Nat.lt_le_incl, Nat.mod_upper_bound; lia).
  assert (LC : lens_from nb 0 ne 0 nb = check_lens v l).
  { rewrite lens_from_spec by lia. rewrite Nat.sub_0_r. cbn [repeat]. apply app_nil_r. }
  assert (SC : list_sum (check_lens v l) = nb * ne) by (unfold check_lens; apply list_sum_repeat).
  assert (Ldata : length data = nd * 8) by (unfold data; rewrite map_length; apply seq_length).
  assert (Lcheck : length check = ne * nb * 8) by (unfold check; rewrite map_length; apply seq_length).
  rewrite (split_blocks_ok nb (nd mod nb) (nd / nb) nb 0 data) by (rewrite LF, Su, Ldata; lia).
  rewrite (split_blocks_ok nb 0 ne nb 0 check) by (rewrite LC, SC, Lcheck; lia).
  rewrite LF, LC, Su, SC. rewrite !skipn_all2 by lia.
  set (px := rounds (nd / nb + 1) (chunks (map (Nat.mul 8) (code_lens v l)) data) ++ rounds ne (chunks (map (Nat.mul 8) (check_lens v l)) check)).
  assert (V : forall dat chk, length dat = nd -> length chk = nb * ne ->
    map (fun p => bit_at (dat ++ chk) (offset p)) px = map Some (flat (symbol_order v l dat chk))).
  { intros dat chk Ld Lk. unfold px, symbol_order. rewrite flat_map_app, !map_app, !rounds_map, <- !chunks_map. f_equal.
    - unfold data. rewrite map_map. cbn [opix offset].
      rewrite (map_ext _ (nth_error (flat (dat ++ chk)))) by (intros; apply nth_error_flat).
      rewrite map_nth_seq by (rewrite flat_length, app_length; lia). cbn [skipn].
      rewrite (Nat.mul_comm nd 8), firstn_flat, firstn_app, Ld, Nat.sub_diag. rewrite (firstn_all2 dat) by lia. cbn [firstn]. rewrite app_nil_r.
      rewrite chunks_map, chunks_flat. rewrite <- rounds_map, rounds_flat. unfold nd, nb. rewrite Nat.add_1_r. reflexivity.
    - unfold check. rewrite map_map. cbn [opix offset].
      rewrite (map_ext _ (nth_error (flat (dat ++ chk)))) by (intros; apply nth_error_flat).
      rewrite map_nth_seq by (rewrite flat_length, app_length; lia).
      rewrite (Nat.mul_comm nd 8), skipn_flat. rewrite skipn_app, Ld, Nat.sub_diag, skipn_all2 by lia. cbn [app skipn].
      rewrite firstn_all2 by (rewrite flat_length; lia).
      rewrite chunks_map, chunks_flat. rewrite <- rounds_map, rounds_flat. reflexivity. }
  assert (LP : length px = 8 * vbytes (vt v)).
  { pose proof (V (repeat 0%N nd) (repeat 0%N (nb * ne)) (repeat_length _ _) (repeat_length _ _)) as X.
    apply (f_equal (@length (option bool))) in X. rewrite !map_length, flat_length, symbol_order_length in X; try assumption; apply repeat_length. }
  replace (nd * 8 + ne * nb * 8) with (length px) by (rewrite LP; unfold nd, DataBytes; fold nb ne; lia).
  rewrite Nat.eqb_refl. exists px. split; [reflexivity|]. split; [exact LP|]. split; [|exact V].
  apply Forall_forall. intros p Hp. unfold px in Hp. apply in_app_or in Hp. destruct Hp as [Hp|Hp]; apply rounds_incl in Hp; destruct Hp as [b [Hb Hx]];
    pose proof (chunks_incl _ _ _ _ Hb Hx) as Hp; apply in_map_iff in Hp; destruct Hp as [o [<- _]]; split; cbn; auto.
Qed.

(** ** The offsets of the pixels *)
Lemma row_perm {A} i (bs : list (list A)) : Permutation (row i bs ++ concat (map (skipn (S i)) bs)) (concat (map (skipn i) bs)).
Proof.
  induction bs as [|b bs IH]; [constructor|]. unfold row in *. cbn [flat_map map concat].
  replace (skipn i b ++ concat (map (skipn i) bs)) with (firstn 1 (skipn i b) ++ skipn (S i) b ++ concat (map (skipn i) bs)) by (rewrite app_assoc, one_more; reflexivity).
  rewrite <- app_assoc. apply Permutation_app_head.
  rewrite app_assoc. etransitivity; [apply Permutation_app_tail; apply Permutation_app_comm|]. rewrite <- app_assoc. apply Permutation_app_head. exact IH.
Qed.
Lemma rr_from_perm {A} n : forall i (bs : list (list A)), Forall (fun b => length b <= i + n) bs -> Permutation (rr_from i n bs) (concat (map (skipn i) bs)).
Proof.
  induction n as [|n IH]; intros i bs F.
  - cbn. induction F as [|b bs H F IHF]; [constructor|]. cbn [map concat]. rewrite skipn_all2 by lia. exact IHF.
  - unfold rr_from. cbn [seq flat_map]. fold (rr_from (S i) n bs). etransitivity; [|apply row_perm]. apply Permutation_app_head. apply IH.
    eapply Forall_impl; [|exact F]. cbv beta. intros. lia.
Qed.
Lemma rr_perm {A} n (l : list A) lens : list_sum lens = length l -> list_max lens <= n -> Permutation (rr n (chunks lens l)) l.
Proof.
  intros S1 M. unfold rr. etransitivity; [apply rr_from_perm|].
  - apply Forall_forall. intros b Hb. cbn [Nat.add]. etransitivity; [|exact M]. rewrite <- (chunks_lengths lens l) by lia. apply list_max_ge. apply in_map. exact Hb.
  - rewrite (map_ext (skipn 0) (fun b => b)) by reflexivity. rewrite map_id, chunks_concat by exact S1. apply Permutation_refl.
Qed.
Lemma symbol_order_perm {A} v l (dat chk : list A) : 1 <= v <= 40 -> l <= 3 -> length dat = DataBytes v l -> length chk = nblock v l * ncheck v l ->
  Permutation (symbol_order v l dat chk) (dat ++ chk).
Proof.
  intros Hv Hl Ld Lc. destruct (code_lens_sum v l Hv Hl) as [Su _]. unfold symbol_order. apply Permutation_app; apply rr_perm.
  - lia.
  - apply code_lens_max.
  - unfold check_lens. rewrite list_sum_repeat. lia.
  - apply check_lens_max.
Qed.
Definition eight (i : nat) : list nat := seq (8 * i) 8.
Lemma seq_eights a n : seq (8 * a) (8 * n) = flat_map eight (seq a n).
Proof.
  revert a. induction n as [|n IH]; intros a; [reflexivity|]. cbn [seq flat_map]. rewrite <- IH. unfold eight. replace (8 * S n) with (8 + 8 * n) by lia.
  rewrite seq_app. f_equal. f_equal. lia.
Qed.
Theorem lplan_offsets v l : 1 <= v <= 40 -> l <= 3 -> exists px, lplan_bits v l = Some px
  /\ map offset px = flat_map eight (symbol_order v l (seq 0 (DataBytes v l)) (seq (DataBytes v l) (nblock v l * ncheck v l)))
  /\ map (fun p => (role p, offset p)) px = map (fun o => (if o <? 8 * DataBytes v l then RData else RCheck, o)) (map offset px).
Proof.
  intros Hv Hl. destruct (sizes v l Hv Hl) as [N1 [C1 [T _]]]. destruct (code_lens_sum v l Hv Hl) as [Su _].
  destruct (lplan_bits_ok v l Hv Hl) as [px [E _]]. exists px. split; [exact E|]. revert E. unfold lplan_bits.
  replace (vbytes (vt v) - ncheck v l * nblock v l) with (DataBytes v l) by (unfold DataBytes; lia).
  set (nb := nblock v l) in *. set (ne := ncheck v l) in *. set (nd := DataBytes v l) in *.
  replace (nd / nb * nb + nd mod nb) with nd by (rewrite (Nat.div_mod nd nb) at 1 by lia; lia).
  set (data := map (opix RData) (seq 0 (nd * 8))). set (check := map (opix RCheck) (seq (nd * 8) (ne * nb * 8))).
  assert (LF : lens_from nb (nd mod nb) (nd / nb) 0 nb = code_lens v l) by (apply lens_from_spec; apply Nat.lt_le_incl, Nat.mod_upper_bound; lia).
  assert (LC : lens_from nb 0 ne 0 nb = check_lens v l).
  { rewrite lens_from_spec by lia. rewrite Nat.sub_0_r. cbn [repeat]. apply app_nil_r. }
  assert (SC : list_sum (check_lens v l) = nb * ne) by (unfold check_lens; apply list_sum_repeat).
  assert (Ldata : length data = nd * 8) by (unfold data; rewrite map_length; apply seq_length).
  assert (Lcheck : length check = ne * nb * 8) by (unfold check; rewrite map_length; apply seq_length).
  rewrite (split_blocks_ok nb (nd mod nb) (nd / nb) nb 0 data) by (rewrite LF, Su, Ldata; lia).
  rewrite (split_blocks_ok nb 0 ne nb 0 check) by (rewrite LC, SC, Lcheck; lia).
  rewrite LF, LC, Su, SC. rewrite !skipn_all2 by lia.
  match goal with |- (if ?c then Some ?x else None) = Some px -> _ => destruct c; [|discriminate]; intros E; assert (Ex : px = x) by congruence; clear E end.
  split.
  - rewrite Ex. rewrite map_app, !rounds_map, <- !chunks_map. unfold data, check. rewrite !map_map. cbn [opix offset]. rewrite !map_id.
    unfold symbol_order. rewrite flat_map_app. f_equal.
    + replace (seq 0 (nd * 8)) with (flat_map eight (seq 0 nd)) by (rewrite <- seq_eights, (Nat.mul_comm nd 8); reflexivity).
      rewrite (chunks_eights eight) by (intros; apply seq_length). rewrite (rounds_eights eight) by (intros; apply seq_length). unfold nd, nb. rewrite Nat.add_1_r. reflexivity.
    + replace (seq (nd * 8) (ne * nb * 8)) with (flat_map eight (seq nd (nb * ne))) by (rewrite <- seq_eights; f_equal; lia).
      rewrite (chunks_eights eight) by (intros; apply seq_length). rewrite (rounds_eights eight) by (intros; apply seq_length). reflexivity.
  - rewrite map_map. apply map_ext_in. intros p Hp. rewrite Ex in Hp. apply in_app_or in Hp.
    destruct Hp as [Hp|Hp]; apply rounds_incl in Hp; destruct Hp as [b [Hb Hx]]; pose proof (chunks_incl _ _ _ _ Hb Hx) as Hp; apply in_map_iff in Hp;
      destruct Hp as [o [<- Ho]]; apply in_seq in Ho; cbn [role offset opix]; destruct (Nat.ltb_spec o (8 * nd)); try lia; reflexivity.
Qed.
