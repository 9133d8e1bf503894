(** * Theorems C48 and C57: rune helpers, segment lists and segment pools of the glob package. *)
From Coq Require Import String.
From Coq Require Import ZArith Arith List Bool Lia Sorted.
From Verif Require Import Utf8 GoStr GlobMatch GlobUtil.
Import ListNotations.
Open Scope nat_scope.

(** ** Vocabulary *)
(** needle occurs in s at position i. *)
Definition occurs (needle s : list Z) (i : nat) : Prop := exists a b, s = a ++ needle ++ b /\ length a = i.
(** The int r is the least (greatest) position with the property, or -1 and there is none. *)
Definition least_pos (P : nat -> Prop) (r : Z) : Prop :=
  (exists i, r = Z.of_nat i /\ P i /\ forall j, j < i -> ~ P j) \/ (r = (-1)%Z /\ forall i, ~ P i).
Definition greatest_pos (P : nat -> Prop) (r : Z) : Prop :=
  (exists i, r = Z.of_nat i /\ P i /\ forall j, i < j -> ~ P j) \/ (r = (-1)%Z /\ forall i, ~ P i).

(** ** Facts about occurrences *)
Lemma skipn_plus {A} (a : nat) : forall b (l : list A), skipn b (skipn a l) = skipn (a + b) l.
Proof. induction a as [|a IH]; intros b l; [reflexivity|]. destruct l; [apply skipn_nil|apply IH]. Qed.
Lemma occurs_iff needle s i : occurs needle s i <-> i + length needle <= length s /\ forall y, y < length needle -> nth (i + y) s 0%Z = nth y needle 0%Z.
Proof.
  split.
  - intros [a [b [-> <-]]]. rewrite !app_length. split; [lia|]. intros y L. rewrite app_nth2_plus, app_nth1 by exact L. reflexivity.
  - intros [L H]. exists (firstn i s), (skipn (i + length needle) s). split; [|apply firstn_length_le; lia].
    rewrite <- (firstn_skipn i s) at 1. f_equal.
    rewrite <- (firstn_skipn (length needle) (skipn i s)). f_equal.
    + apply (nth_ext _ _ 0%Z 0%Z).
      * rewrite firstn_length_le; [reflexivity|]. rewrite skipn_length. lia.
      * intros y Ly. rewrite firstn_length_le in Ly by (rewrite skipn_length; lia). rewrite <- H by exact Ly.
        rewrite <- (firstn_skipn i s) at 2. rewrite app_nth2 by (rewrite firstn_length_le by lia; lia). rewrite firstn_length_le by lia.
        replace (i + y - i) with y by lia.
        rewrite <- (firstn_skipn (length needle) (skipn i s)) at 2. rewrite app_nth1; [reflexivity|]. rewrite firstn_length_le; [exact Ly|]. rewrite skipn_length. lia.
    + rewrite skipn_plus. reflexivity.
Qed.
Lemma Equal_loop_iff n : forall a b i, Equal_loop n a b i = true <-> forall y, i <= y < i + n -> nth y a 0%Z = nth y b 0%Z.
Proof.
  induction n as [|n IH]; intros a b i; cbn [Equal_loop]; [split; [intros _ y; lia|reflexivity]|].
  destruct (Z.eqb_spec (nth i a 0%Z) (nth i b 0%Z)) as [E|E].
  - rewrite IH. split; intros H y L; [|apply H; lia]. destruct (Nat.eq_dec y i) as [->|]; [exact E|apply H; lia].
  - split; [discriminate|]. intros H. exfalso. apply E, H. lia.
Qed.
Lemma Equal_iff a b : Equal a b = true <-> a = b.
Proof.
  unfold Equal. destruct (Nat.eqb_spec (length a) (length b)) as [E|E].
  - rewrite Equal_loop_iff. split.
    + intros H. apply (nth_ext _ _ 0%Z 0%Z); [exact E|]. intros n L. apply H. lia.
    + intros ->. reflexivity.
  - split; [discriminate|]. intros ->. contradiction.
Qed.
Lemma here_iff n : forall s needle i y, here n s needle i y = true <-> forall z, y <= z < y + n -> nth (i + z) s 0%Z = nth z needle 0%Z.
Proof.
  induction n as [|n IH]; intros s needle i y; cbn [here]; [split; [intros _ z; lia|reflexivity]|].
  destruct (Z.eqb_spec (nth (i + y) s 0%Z) (nth y needle 0%Z)) as [E|E].
  - rewrite IH. split; intros H z L; [|apply H; lia]. destruct (Nat.eq_dec z y) as [->|]; [exact E|apply H; lia].
  - split; [discriminate|]. intros H. exfalso. apply E, H. lia.
Qed.
Lemma here_back_iff n : forall s needle i, n <= length needle -> length needle <= S i -> 
  (here_back n s needle i = true <-> forall y, y < n -> nth (S i - length needle + y) s 0%Z = nth y needle 0%Z).
Proof.
  induction n as [|n IH]; intros s needle i L1 L2; cbn [here_back]; [split; [intros _ y; lia|reflexivity]|].
  replace (i - (length needle - n - 1)) with (S i - length needle + n) by lia.
  destruct (Z.eqb_spec (nth (S i - length needle + n) s 0%Z) (nth n needle 0%Z)) as [E|E].
  - rewrite IH by lia. split; intros H y L; [|apply H; lia]. destruct (Nat.eq_dec y n) as [->|]; [exact E|apply H; lia].
  - split; [discriminate|]. intros H. exfalso. apply E, H. lia.
Qed.
Lemma occurs_one s r i : occurs [r] s i <-> nth_error s i = Some r.
Proof.
  split.
  - intros [a [b [-> <-]]]. rewrite nth_error_app2 by lia. rewrite Nat.sub_diag. reflexivity.
  - intros H. apply nth_error_split in H. destruct H as [a [b [-> L]]]. exists a, b. split; [reflexivity|exact L].
Qed.
Lemma IndexRune_from_spec s r : forall k,
  (exists i, IndexRune_from s r k = Z.of_nat (k + i) /\ nth_error s i = Some r /\ forall j, j < i -> nth_error s j <> Some r)
  \/ (IndexRune_from s r k = (-1)%Z /\ forall i, nth_error s i <> Some r).
Proof.
  induction s as [|c t IH]; intros k; cbn [IndexRune_from].
  - right. split; [reflexivity|]. intros i. destruct i; discriminate.
  - destruct (Z.eqb_spec c r) as [->|N].
    + left. exists 0. rewrite Nat.add_0_r. repeat split. intros j L. lia.
    + destruct (IH (S k)) as [[i [E [H1 H2]]]|[E H]].
      * left. exists (S i). rewrite E. split; [f_equal; lia|]. split; [exact H1|]. intros [|j] L; [cbn; congruence|]. apply H2. lia.
      * right. split; [exact E|]. intros [|i]; [cbn; congruence|apply H].
Qed.
Lemma IndexLastRune_from_spec s r : forall n, n <= length s ->
  (exists i, IndexLastRune_from s r n = Z.of_nat i /\ i < n /\ nth_error s i = Some r /\ forall j, i < j < n -> nth_error s j <> Some r)
  \/ (IndexLastRune_from s r n = (-1)%Z /\ forall i, i < n -> nth_error s i <> Some r).
Proof.
  induction n as [|n IH]; intros L; cbn [IndexLastRune_from].
  - right. split; [reflexivity|]. intros i H. lia.
  - pose proof (nth_error_nth' s 0%Z (n := n) ltac:(lia)) as NE.
    destruct (Z.eqb_spec (nth n s 0%Z) r) as [E|N].
    + left. exists n. split; [reflexivity|]. split; [lia|]. split; [congruence|]. intros j H. lia.
    + assert (NN : nth_error s n <> Some r) by congruence.
      destruct (IH ltac:(lia)) as [[i [E [H0 [H1 H2]]]]|[E H]].
      * left. exists i. split; [exact E|]. split; [lia|]. split; [exact H1|]. intros j H. destruct (Nat.eq_dec j n) as [->|]; [exact NN|apply H2; lia].
      * right. split; [exact E|]. intros i Hi. destruct (Nat.eq_dec i n) as [->|]; [exact NN|apply H; lia].
Qed.
Lemma Index_loop_spec s needle : needle <> [] -> forall fuel i, length s < i + fuel -> (forall j, j < i -> ~ occurs needle s j) -> least_pos (occurs needle s) (Index_loop fuel s needle i).
Proof.
  intros NE. assert (LN : 0 < length needle) by (destruct needle; [contradiction|cbn; lia]).
  induction fuel as [|f IH]; intros i L Hj; cbn [Index_loop].
  - right. split; [reflexivity|]. intros k Hk. destruct (Nat.lt_ge_cases k i) as [?|G]; [eapply Hj; eauto|]. apply occurs_iff in Hk. lia.
  - destruct ((i <? length s) && (length needle <=? length s - i)) eqn:C.
    + apply andb_true_iff in C. destruct C as [C1 C2]. apply Nat.ltb_lt in C1. apply Nat.leb_le in C2.
      destruct (here (length needle) s needle i 0) eqn:H.
      * left. exists i. split; [reflexivity|]. split; [|exact Hj]. apply occurs_iff. split; [lia|]. intros y Ly. rewrite here_iff in H. apply H. lia.
      * apply IH; [lia|]. intros j Lj. destruct (Nat.eq_dec j i) as [->|]; [|apply Hj; lia].
        intros O. apply occurs_iff in O. destruct O as [_ O]. assert (X : here (length needle) s needle i 0 = true) by (apply here_iff; intros z Lz; apply O; lia). congruence.
    + right. split; [reflexivity|]. intros k Hk. destruct (Nat.lt_ge_cases k i) as [?|G]; [eapply Hj; eauto|]. apply occurs_iff in Hk.
      apply andb_false_iff in C. destruct C as [C|C]; [apply Nat.ltb_ge in C|apply Nat.leb_gt in C]; lia.
Qed.

(** ** C48: runes *)
(** Index is the first occurrence. *)
Theorem C48_index : forall s needle, least_pos (occurs needle s) (RIndex s needle).
Proof.
  intros s needle. unfold RIndex. destruct (Nat.eqb_spec (length needle) 0) as [E|N0].
  { destruct needle; [|discriminate]. left. exists 0. split; [reflexivity|]. split; [exists [], s; auto|]. intros j L. lia. }
  assert (NE : needle <> []) by (intros ->; apply N0; reflexivity).
  destruct (Nat.eqb_spec (length needle) 1) as [E|N1].
  { destruct needle as [|r [|]]; try discriminate. cbn [nth]. unfold IndexRune.
    destruct (IndexRune_from_spec s r 0) as [[i [A [B D]]]|[A B]].
    - left. exists i. split; [exact A|]. split; [apply occurs_one, B|]. intros j L O. apply occurs_one in O. eapply D; eauto.
    - right. split; [exact A|]. intros i O. apply occurs_one in O. eapply B; eauto. }
  destruct (Nat.eqb_spec (length needle) (length s)) as [E|N2].
  { destruct (Equal s needle) eqn:Q.
    - apply Equal_iff in Q. subst needle. left. exists 0. split; [reflexivity|]. split; [exists [], []; rewrite app_nil_r; auto|]. intros j L. lia.
    - right. split; [reflexivity|]. intros i O. apply occurs_iff in O. destruct O as [L O]. assert (i = 0) by lia. subst i.
      assert (X : s = needle) by (apply (nth_ext _ _ 0%Z 0%Z); [congruence|]; intros n Hn; apply (O n); lia). subst. rewrite (proj2 (Equal_iff _ _) eq_refl) in Q. discriminate. }
  destruct (Nat.ltb_spec (length s) (length needle)).
  - right. split; [reflexivity|]. intros i O. apply occurs_iff in O. lia.
  - apply Index_loop_spec; [exact NE|lia|]. intros j L. lia.
Qed.
Print Assumptions C48_index.
(** LastIndex is the last occurrence, except that when the needle has at least two runes and is shorter than s, position 0 is not looked at. *)
Definition missed (s needle : list Z) (i : nat) : Prop := i = 0 /\ 2 <= length needle < length s.
Lemma LastIndex_loop_spec s needle : needle <> [] -> forall n, n <= length s -> (forall j, n < j + length needle -> ~ occurs needle s j) ->
  greatest_pos (fun i => occurs needle s i /\ i <> 0) (LastIndex_loop n s needle).
Proof.
  intros NE. assert (LN : 0 < length needle) by (destruct needle; [contradiction|cbn; lia]).
  induction n as [|i IH]; intros L Hj; cbn [LastIndex_loop].
  - right. split; [reflexivity|]. intros k [Hk _]. eapply Hj; [|exact Hk]. lia.
  - destruct (Nat.leb_spec (length needle) i) as [C|C].
    + destruct (here_back (length needle) s needle i) eqn:H.
      * left. exists (S i - length needle). split; [lia|]. split.
        -- split; [|lia]. apply occurs_iff. split; [lia|]. intros y Ly. rewrite here_back_iff in H by lia. apply H. exact Ly.
        -- intros j Lj [O _]. eapply Hj; [|exact O]. lia.
      * apply IH; [lia|]. intros j Lj O. destruct (Nat.eq_dec (S i) (j + length needle)) as [E|].
        -- apply occurs_iff in O. destruct O as [_ O]. assert (X : here_back (length needle) s needle i = true).
           { apply here_back_iff; [lia|lia|]. intros y Ly. replace (S i - length needle) with j by lia. apply O, Ly. }
           congruence.
        -- eapply Hj; [|exact O]. lia.
    + right. split; [reflexivity|]. intros k [Hk N]. eapply Hj; [|exact Hk]. lia.
Qed.
Theorem C48_last_index : forall s needle, greatest_pos (fun i => occurs needle s i /\ ~ missed s needle i) (RLastIndex s needle).
Proof.
  intros s needle. unfold RLastIndex, missed. destruct (Nat.eqb_spec (length needle) 0) as [E|N0].
  { destruct needle; [|discriminate]. left. exists (length s). split; [reflexivity|]. split.
    - split; [exists s, []; rewrite app_nil_r; auto|]. cbn. lia.
    - intros j L [O _]. apply occurs_iff in O. cbn in O. lia. }
  assert (NE : needle <> []) by (intros ->; apply N0; reflexivity).
  destruct (Nat.eqb_spec (length needle) 1) as [E|N1].
  { destruct needle as [|r [|]]; try discriminate. cbn [nth]. unfold IndexLastRune.
    destruct (IndexLastRune_from_spec s r (length s) ltac:(lia)) as [[i [A [B [D F]]]]|[A B]].
    - left. exists i. split; [exact A|]. split; [split; [apply occurs_one, D|cbn; lia]|]. intros j L [O _]. apply occurs_one in O. apply (F j); [|exact O].
      split; [exact L|]. apply nth_error_Some. congruence.
    - right. split; [exact A|]. intros i [O _]. apply occurs_one in O. apply (B i); [|exact O]. apply nth_error_Some. congruence. }
  destruct (Nat.eqb_spec (length needle) (length s)) as [E|N2].
  { destruct (Equal s needle) eqn:Q.
    - apply Equal_iff in Q. subst needle. left. exists 0. split; [reflexivity|]. split; [split; [exists [], []; rewrite app_nil_r; auto|lia]|].
      intros j L [O _]. apply occurs_iff in O. lia.
    - right. split; [reflexivity|]. intros i [O _]. apply occurs_iff in O. destruct O as [L O]. assert (i = 0) by lia. subst i.
      assert (X : s = needle) by (apply (nth_ext _ _ 0%Z 0%Z); [congruence|]; intros n Hn; apply (O n); lia). subst. rewrite (proj2 (Equal_iff _ _) eq_refl) in Q. discriminate. }
  destruct (Nat.ltb_spec (length s) (length needle)).
  - right. split; [reflexivity|]. intros i [O _]. apply occurs_iff in O. lia.
  - assert (G : greatest_pos (fun i => occurs needle s i /\ i <> 0) (LastIndex_loop (length s) s needle)).
    { apply LastIndex_loop_spec; [exact NE|lia|]. intros j L O. apply occurs_iff in O. lia. }
    destruct G as [[i [A [[B D] F]]]|[A B]].
    + left. exists i. split; [exact A|]. split; [split; [exact B|lia]|]. intros j L [O M]. apply (F j L). split; [exact O|lia].
    + right. split; [exact A|]. intros i [O M]. apply (B i). split; [exact O|]. intros ->. apply M. split; [reflexivity|]. lia.
Qed.
Print Assumptions C48_last_index.
Theorem C48_last_index_refuted : exists s needle, occurs needle s 0 /\ RLastIndex s needle = (-1)%Z.
Proof. exists [97; 97; 98]%Z, [97; 97]%Z. split; [|reflexivity]. exists [], [98%Z]. auto. Qed.
Print Assumptions C48_last_index_refuted.
(** IndexAny is the first position holding one of the characters. *)
Lemma IndexAny_from_spec chars s : forall k,
  (exists i, IndexAny_from s chars k = Z.of_nat (k + i) /\ (exists c, nth_error s i = Some c /\ In c chars) /\ forall j, j < i -> ~ exists c, nth_error s j = Some c /\ In c chars)
  \/ (IndexAny_from s chars k = (-1)%Z /\ forall i, ~ exists c, nth_error s i = Some c /\ In c chars).
Proof.
  induction s as [|c t IH]; intros k; cbn [IndexAny_from].
  - right. split; [reflexivity|]. intros i [c [E _]]. destruct i; discriminate.
  - destruct (existsb (fun m => (c =? m)%Z) chars) eqn:X.
    + apply existsb_exists in X. destruct X as [x [I X]]. apply Z.eqb_eq in X. subst x. left. exists 0. rewrite Nat.add_0_r. split; [reflexivity|]. split; [exists c; auto|]. intros j L. lia.
    + assert (NI : ~ In c chars). { intros I. assert (Y : existsb (fun m => (c =? m)%Z) chars = true) by (apply existsb_exists; exists c; split; [exact I|apply Z.eqb_refl]). congruence. }
      destruct (IH (S k)) as [[i [E [H1 H2]]]|[E H]].
      * left. exists (S i). rewrite E. split; [f_equal; lia|]. split; [exact H1|]. intros [|j] L; [intros [d [D J]]; injection D as <-; contradiction|]. apply (H2 j). lia.
      * right. split; [exact E|]. intros [|i]; [intros [d [D J]]; injection D as <-; contradiction|apply H].
Qed.
Theorem C48_index_any : forall s chars, least_pos (fun i => exists c, nth_error s i = Some c /\ In c chars) (IndexAny s chars).
Proof.
  intros s chars. unfold IndexAny. destruct (Nat.ltb_spec 0 (length chars)) as [L|L].
  - destruct (IndexAny_from_spec chars s 0) as [[i [A B]]|AB]; [left; exists i; auto|right; exact AB].
  - destruct chars; [|cbn in L; lia]. right. split; [reflexivity|]. intros i [c [_ []]].
Qed.
Print Assumptions C48_index_any.
(** IndexRune, IndexLastRune, Contains, Equal, HasPrefix and HasSuffix. *)
Theorem C48_runes : forall s t r,
  least_pos (fun i => nth_error s i = Some r) (IndexRune s r) /\ greatest_pos (fun i => nth_error s i = Some r) (IndexLastRune s r)
  /\ (RContains s t = true <-> exists a b, s = a ++ t ++ b) /\ (Equal s t = true <-> s = t)
  /\ (RHasPrefix s t = true <-> exists b, s = t ++ b) /\ (RHasSuffix s t = true <-> exists a, s = a ++ t).
Proof.
  intros s t r. split; [|split; [|split; [|split; [|split]]]].
  - destruct (IndexRune_from_spec s r 0) as [[i A]|A]; [left; exists i; exact A|right; exact A].
  - destruct (IndexLastRune_from_spec s r (length s) ltac:(lia)) as [[i [A [B [D F]]]]|[A B]].
    + left. exists i. split; [exact A|]. split; [exact D|]. intros j L O. apply (F j); [|exact O]. split; [exact L|]. apply nth_error_Some. congruence.
    + right. split; [exact A|]. intros i O. apply (B i); [|exact O]. apply nth_error_Some. congruence.
  - unfold RContains. rewrite Z.leb_le. destruct (C48_index s t) as [[i [-> [[a [b [E _]]] _]]]|[-> N]].
    + split; [intros _; eauto|lia].
    + split; [lia|]. intros [a [b E]]. exfalso. apply (N (length a)). exists a, b. auto.
  - apply Equal_iff.
  - unfold RHasPrefix. rewrite andb_true_iff, Nat.leb_le, Equal_iff. split.
    + intros [L E]. exists (skipn (length t) s). rewrite <- E at 1. symmetry. apply firstn_skipn.
    + intros [b ->]. rewrite app_length, firstn_app, firstn_all, Nat.sub_diag, firstn_O, app_nil_r. split; [lia|reflexivity].
  - unfold RHasSuffix. rewrite andb_true_iff, Nat.leb_le, Equal_iff. split.
    + intros [L E]. exists (firstn (length s - length t) s). rewrite <- E at 2. symmetry. apply firstn_skipn.
    + intros [a ->]. rewrite app_length, skipn_app. replace (length a + length t - length t) with (length a) by lia. rewrite skipn_all, Nat.sub_diag. split; [lia|reflexivity].
Qed.
Print Assumptions C48_runes.
(** Max is the greatest rune (and 0), Min the least rune, -1 if there is none; for runes that are not negative. *)
Lemma RMax_fold s : forall m, (m <= fold_left (fun m r => if (r >? m)%Z then r else m) s m)%Z /\ Forall (fun r => (r <= fold_left (fun m r => if (r >? m)%Z then r else m) s m)%Z) s
  /\ In (fold_left (fun m r => if (r >? m)%Z then r else m) s m) (m :: s).
Proof.
  induction s as [|r s IH]; intros m; cbn [fold_left]; [split; [lia|split; [constructor|left; reflexivity]]|].
  destruct (IH (if (r >? m)%Z then r else m)) as [A [B D]]. rewrite Z.gtb_ltb in *. destruct (Z.ltb_spec m r).
  - split; [lia|]. split; [constructor; [exact A|exact B]|]. right. exact D.
  - split; [lia|]. split; [constructor; [lia|exact B]|]. destruct D as [D|D]; [left; exact D|right; right; exact D].
Qed.
Lemma RMin_fold s : forall m, (0 <= m)%Z -> Forall (fun r => 0 <= r)%Z s ->
  let x := fold_left (fun m r => if (m =? -1)%Z then r else if (r <? m)%Z then r else m) s m in (x <= m)%Z /\ Forall (fun r => (x <= r)%Z) s /\ In x (m :: s).
Proof.
  induction s as [|r s IH]; intros m Hm Hs; cbn [fold_left]; [split; [lia|split; [constructor|left; reflexivity]]|].
  inversion Hs as [|? ? Hr Hs']; subst. rewrite (proj2 (Z.eqb_neq m (-1))) by lia. destruct (Z.ltb_spec r m) as [L|L].
  - destruct (IH r Hr Hs') as [A [B D]]. split; [lia|]. split; [constructor; [exact A|exact B]|]. right. exact D.
  - destruct (IH m Hm Hs') as [A [B D]]. split; [lia|]. split; [constructor; [lia|exact B]|]. destruct D as [D|D]; [left; exact D|right; right; exact D].
Qed.
Theorem C48_max_min : forall s, Forall (fun r => 0 <= r)%Z s ->
  (Forall (fun r => r <= RMax s)%Z s /\ (s = [] /\ RMax s = 0%Z \/ In (RMax s) s \/ RMax s = 0%Z))
  /\ (s = [] /\ RMin s = (-1)%Z \/ In (RMin s) s /\ Forall (fun r => RMin s <= r)%Z s).
Proof.
  intros s P. split.
  - destruct (RMax_fold s 0) as [A [B D]]. split; [exact B|]. destruct D as [D|D]; [right; right; symmetry; exact D|right; left; exact D].
  - destruct s as [|r s]; [left; auto|]. right. inversion P as [|? ? Pr Ps]; subst. unfold RMin. cbn [fold_left Z.eqb Pos.eqb].
    destruct (RMin_fold s r Pr Ps) as [A [B D]]. split; [exact D|]. constructor; [exact A|exact B].
Qed.
Print Assumptions C48_max_min.

(** ** C48: segments *)
(** appendMerge of strictly increasing lists is the strictly increasing list of the elements of both. *)
Lemma merge_cons x t y s : merge (x :: t) (y :: s) = if x =? y then x :: merge t s else if x <? y then x :: merge t (y :: s) else y :: merge (x :: t) s.
Proof. reflexivity. Qed.
Lemma merge_nil_r t : merge t [] = t.
Proof. destruct t; reflexivity. Qed.
Lemma merge_nil_l s : merge [] s = s.
Proof. destruct s; reflexivity. Qed.
Lemma merge_In : forall n t s, length t + length s <= n -> forall z, In z (merge t s) <-> In z t \/ In z s.
Proof.
  induction n as [|n IH]; intros t s L z.
  - destruct t; [|cbn in L; lia]. destruct s; [|cbn in L; lia]. cbn. tauto.
  - destruct t as [|x t]; [rewrite merge_nil_l; cbn; tauto|]. destruct s as [|y s]; [rewrite merge_nil_r; cbn; tauto|]. rewrite merge_cons. cbn [length] in L.
    destruct (Nat.eqb_spec x y) as [->|N]; [|destruct (Nat.ltb_spec x y)].
    + cbn [In]. rewrite IH by lia. tauto.
    + cbn [In]. rewrite IH by (cbn [length]; lia). cbn [In]. tauto.
    + cbn [In]. rewrite IH by (cbn [length]; lia). cbn [In]. tauto.
Qed.
Lemma sorted_head x l : StronglySorted lt (x :: l) -> forall z, In z l -> x < z.
Proof. intros H. inversion H as [|? ? _ F]; subst. rewrite Forall_forall in F. exact F. Qed.
Lemma merge_sorted : forall n t s, length t + length s <= n -> StronglySorted lt t -> StronglySorted lt s -> StronglySorted lt (merge t s).
Proof.
  induction n as [|n IH]; intros t s L St Ss.
  - destruct t; [|cbn in L; lia]. rewrite merge_nil_l. exact Ss.
  - destruct t as [|x t]; [rewrite merge_nil_l; exact Ss|]. destruct s as [|y s]; [rewrite merge_nil_r; exact St|]. rewrite merge_cons. cbn [length] in L.
    pose proof (sorted_head _ _ St) as Hx. pose proof (sorted_head _ _ Ss) as Hy.
    assert (St' : StronglySorted lt t) by (inversion St; assumption). assert (Ss' : StronglySorted lt s) by (inversion Ss; assumption).
    destruct (Nat.eqb_spec x y) as [->|N]; [|destruct (Nat.ltb_spec x y)].
    + constructor; [apply IH; [lia|assumption..]|]. rewrite Forall_forall. intros z Z. apply (merge_In n) in Z; [|lia]. destruct Z; auto.
    + constructor; [apply IH; [cbn [length]; lia|assumption..]|]. rewrite Forall_forall. intros z Z. apply (merge_In n) in Z; [|cbn [length]; lia].
      destruct Z as [Z|[<-|Z]]; [auto|assumption|]. specialize (Hy z Z). lia.
    + constructor; [apply IH; [cbn [length]; lia|assumption..]|]. rewrite Forall_forall. intros z Z. apply (merge_In n) in Z; [|cbn [length]; lia].
      destruct Z as [[<-|Z]|Z]; [lia| |auto]. specialize (Hx z Z). lia.
Qed.
Theorem C48_append_merge : forall t s, StronglySorted lt t -> StronglySorted lt s ->
  StronglySorted lt (appendMerge t s) /\ forall z, In z (appendMerge t s) <-> In z t \/ In z s.
Proof. intros t s St Ss. split; [eapply merge_sorted; eauto|intros z; eapply merge_In; eauto]. Qed.
Print Assumptions C48_append_merge.
(** reverseSegments reverses. *)
Lemma upd_length {A} (l : list A) : forall i x, length (upd l i x) = length l.
Proof. induction l as [|y l IH]; intros [|i] x; cbn; auto. Qed.
Lemma nth_upd (l : list nat) : forall i x j d, i < length l -> nth j (upd l i x) d = if j =? i then x else nth j l d.
Proof.
  induction l as [|y l IH]; intros i x j d L; [cbn in L; lia|]. destruct i as [|i].
  - destruct j as [|j]; reflexivity.
  - destruct j as [|j]; [reflexivity|]. cbn [upd nth]. rewrite IH by (cbn in L; lia). reflexivity.
Qed.
Lemma rev_loop_spec l0 : forall n i l, length l = length l0 -> 2 * (i + n) <= length l0 ->
  (forall j, j < length l0 -> nth j l 0 = if (j <? i) || (length l0 - i <=? j) then nth (length l0 - 1 - j) l0 0 else nth j l0 0) ->
  length (rev_loop n i l) = length l0 /\
  forall j, j < length l0 -> nth j (rev_loop n i l) 0 = if (j <? i + n) || (length l0 - (i + n) <=? j) then nth (length l0 - 1 - j) l0 0 else nth j l0 0.
Proof.
  induction n as [|n IH]; intros i l E B H; cbn [rev_loop].
  - rewrite Nat.add_0_r. auto.
  - replace (i + S n) with (S i + n) by lia. apply IH; [rewrite !upd_length; exact E|lia|].
    intros j L. rewrite nth_upd by (rewrite upd_length; lia). rewrite nth_upd by lia. rewrite E.
    rewrite !H by lia.
    replace ((length l0 - i - 1 <? i) || (length l0 - i <=? length l0 - i - 1)) with false
      by (symmetry; apply orb_false_iff; rewrite Nat.ltb_ge, Nat.leb_gt; lia).
    replace ((i <? i) || (length l0 - i <=? i)) with false by (symmetry; apply orb_false_iff; rewrite Nat.ltb_ge, Nat.leb_gt; lia).
    destruct (Nat.eqb_spec j (length l0 - i - 1)) as [->|N1].
    + replace ((length l0 - i - 1 <? S i) || (length l0 - S i <=? length l0 - i - 1)) with true by (symmetry; apply orb_true_iff; right; apply Nat.leb_le; lia).
      f_equal. lia.
    + destruct (Nat.eqb_spec j i) as [->|N2].
      * replace ((i <? S i) || (length l0 - S i <=? i)) with true by (symmetry; apply orb_true_iff; left; apply Nat.ltb_lt; lia). f_equal. lia.
      * destruct (Nat.ltb_spec j i); destruct (Nat.ltb_spec j (S i)); destruct (Nat.leb_spec (length l0 - i) j); destruct (Nat.leb_spec (length l0 - S i) j); cbn [orb]; try reflexivity; exfalso; lia.
Qed.
Theorem C48_reverse : forall l, reverseSegments l = rev l.
Proof.
  intros l. unfold reverseSegments. pose proof (Nat.mul_div_le (length l) 2 ltac:(lia)) as D. pose proof (Nat.div_mod (length l) 2 ltac:(lia)) as DM. pose proof (Nat.mod_upper_bound (length l) 2 ltac:(lia)).
  destruct (rev_loop_spec l (length l / 2) 0 l eq_refl ltac:(lia)) as [A B].
  { intros j L. replace ((j <? 0) || (length l - 0 <=? j)) with false by (symmetry; apply orb_false_iff; rewrite Nat.ltb_ge, Nat.leb_gt; lia). reflexivity. }
  apply (nth_ext _ _ 0 0); [rewrite rev_length; exact A|]. intros j L. rewrite A in L. rewrite rev_nth by exact L. rewrite B by exact L. cbn [plus].
  replace (length l - S j) with (length l - 1 - j) by lia.
  destruct (Nat.ltb_spec j (length l / 2)); [reflexivity|]. destruct (Nat.leb_spec (length l - length l / 2) j); [reflexivity|]. cbn [orb]. f_equal. lia.
Qed.
Print Assumptions C48_reverse.

(** ** C57: segment pools *)
Definition small_at (c i : Z) : bool := existsb (Z.eqb i) initialised && (c <=? i + 1)%Z && ((i =? 15) || ((i + 1) / 2 <? c))%Z.
Lemma small_all : forallb (fun c => small_at c (getTableIndex c)) (map (fun k => Z.of_nat k + 16)%Z (seq 0 (Z.to_nat 1009))) = true.
Proof. vm_compute. reflexivity. Qed.
Lemma lor_shift v k : (0 <= v < 2 ^ 63)%Z -> (0 <= k)%Z -> (v <= Z.lor v (Z.shiftr v k) < 2 ^ 63)%Z.
Proof.
  intros Hv Hk. assert (Hs : (0 <= Z.shiftr v k)%Z) by (apply Z.shiftr_nonneg; lia).
  assert (N : (0 <= Z.lor v (Z.shiftr v k))%Z) by (apply Z.lor_nonneg; lia). split.
  - apply Z.ldiff_le; [exact N|]. apply Z.bits_inj'. intros n _. rewrite Z.ldiff_spec, Z.lor_spec, Z.bits_0. destruct (Z.testbit v n); [reflexivity|apply andb_false_l].
  - destruct (Z.eq_dec (Z.lor v (Z.shiftr v k)) 0) as [E|NE]; [rewrite E; reflexivity|].
    apply Z.log2_lt_pow2; [lia|]. rewrite Z.log2_lor by lia.
    assert (L : (Z.shiftr v k <= v)%Z) by (rewrite Z.shiftr_div_pow2 by lia; apply Z.div_le_upper_bound; [apply Z.pow_pos_nonneg; lia|]; pose proof (Z.pow_pos_nonneg 2 k ltac:(lia) Hk) as Pk; rewrite <- (Z.mul_1_l v) at 1; apply Z.mul_le_mono_nonneg_r; lia).
    pose proof (Z.log2_le_mono _ _ L). rewrite Z.max_l by lia.
    destruct (Z.eq_dec v 0) as [->|]; [reflexivity|]. apply Z.log2_lt_pow2; lia.
Qed.
Lemma wrap64_id x : (- 2 ^ 63 <= x < 2 ^ 63)%Z -> wrap64 x = x.
Proof. intros B. unfold wrap64. rewrite Z.mod_small by lia. lia. Qed.
Lemma power_large c : (1024 < c < 2 ^ 63)%Z -> getTableIndex c = 1023%Z \/ getTableIndex c = 15%Z.
Proof.
  intros B. unfold getTableIndex, toPowerOfTwo. rewrite (wrap64_id (c - 1)) by lia. cbv zeta.
  set (v0 := (c - 1)%Z). assert (B0 : (1024 <= v0 < 2 ^ 63)%Z) by (unfold v0; lia).
  set (v1 := Z.lor v0 (Z.shiftr v0 1)). pose proof (lor_shift v0 1 ltac:(lia) ltac:(lia)) as B1. fold v1 in B1.
  set (v2 := Z.lor v1 (Z.shiftr v1 2)). pose proof (lor_shift v1 2 ltac:(lia) ltac:(lia)) as B2. fold v2 in B2.
  set (v3 := Z.lor v2 (Z.shiftr v2 4)). pose proof (lor_shift v2 4 ltac:(lia) ltac:(lia)) as B3. fold v3 in B3.
  set (v4 := Z.lor v3 (Z.shiftr v3 8)). pose proof (lor_shift v3 8 ltac:(lia) ltac:(lia)) as B4. fold v4 in B4.
  set (v5 := Z.lor v4 (Z.shiftr v4 16)). pose proof (lor_shift v4 16 ltac:(lia) ltac:(lia)) as B5. fold v5 in B5.
  destruct (Z.eq_dec v5 (2 ^ 63 - 1)) as [E|N].
  - rewrite E. right. reflexivity.
  - rewrite wrap64_id by lia. destruct (Z.leb_spec 1024 (v5 + 1)); [left; reflexivity|lia].
Qed.
Lemma initialised_eq : initialised = [1023; 511; 255; 127; 63; 31; 15]%Z.
Proof. vm_compute. reflexivity. Qed.
Lemma small_in c : (16 <= c <= 1024)%Z -> small_at c (getTableIndex c) = true.
Proof.
  intros B. assert (I : In c (map (fun k => Z.of_nat k + 16)%Z (seq 0 (Z.to_nat 1009)))).
  { apply in_map_iff. exists (Z.to_nat (c - 16)). split; [lia|]. apply in_seq. lia. }
  exact (proj1 (forallb_forall (fun c => small_at c (getTableIndex c)) _) small_all c I).
Qed.
Lemma small_at_spec c i : small_at c i = true -> In i initialised /\ exists k, (4 <= k)%Z /\ i = (2 ^ k - 1)%Z /\ (c <= 2 ^ k)%Z /\ (k = 4 \/ 2 ^ (k - 1) < c)%Z.
Proof.
  unfold small_at. rewrite !andb_true_iff, orb_true_iff, Z.leb_le, Z.eqb_eq, Z.ltb_lt. intros [[A1 A2] A3].
  apply existsb_exists in A1. destruct A1 as [j [Ij Ej]]. apply Z.eqb_eq in Ej. subst j. split; [exact Ij|].
  rewrite initialised_eq in Ij. cbn [In] in Ij.
  destruct Ij as [<-|[<-|[<-|[<-|[<-|[<-|[<-|[]]]]]]]]; [exists 10%Z|exists 9%Z|exists 8%Z|exists 7%Z|exists 6%Z|exists 5%Z|exists 4%Z];
    (split; [lia|]; split; [reflexivity|]; cbn in A2, A3 |- *; split; [lia|]; try lia).
Qed.
(** For every int: the index computed for a size of at least 16 is one of the pools init set up; up to 1024 it is the pool whose slices have the
    least power of two that is enough. *)
Theorem C57_pool_index : forall c, (16 <= c < 2 ^ 63)%Z ->
  In (getTableIndex c) initialised
  /\ ((c <= 1024)%Z -> exists k, (4 <= k)%Z /\ getTableIndex c = (2 ^ k - 1)%Z /\ (c <= 2 ^ k)%Z /\ (k = 4 \/ 2 ^ (k - 1) < c)%Z).
Proof.
  intros c B. destruct (Z_le_gt_dec c 1024) as [L|G].
  - destruct (small_at_spec c (getTableIndex c) (small_in c (conj (proj1 B) L))) as [I K]. split; [exact I|]. intros _. exact K.
  - split; [|lia]. destruct (power_large c ltac:(lia)) as [->| ->]; [left; reflexivity|]. rewrite initialised_eq. cbn. tauto.
Qed.
Print Assumptions C57_pool_index.
(** So taking and giving back a segment slice never panics. *)
Theorem C57_no_panic : forall c, (0 <= c < 2 ^ 63)%Z ->
  (exists a, acquireSegments c = Some a /\ (a = Fresh c \/ exists i, a = Pooled i /\ In i initialised))
  /\ exists r, releaseSegments c = Some r /\ (r = None \/ exists i, r = Some i /\ In i initialised).
Proof.
  intros c B. unfold acquireSegments, releaseSegments. destruct (Z.ltb_spec c 16) as [L|L].
  - rewrite (proj2 (Z.ltb_ge c 0)) by lia. split; eexists; split; eauto.
  - destruct (C57_pool_index c ltac:(lia)) as [I _]. cbv zeta.
    assert (R : ((0 <=? getTableIndex c) && (getTableIndex c <? 1024))%Z = true).
    { rewrite initialised_eq in I. cbn [In] in I. destruct I as [<-|[<-|[<-|[<-|[<-|[<-|[<-|[]]]]]]]]; reflexivity. }
    rewrite R. assert (X : existsb (Z.eqb (getTableIndex c)) initialised = true) by (apply existsb_exists; eexists; split; [exact I|apply Z.eqb_refl]).
    rewrite X. cbn [andb]. split; eexists; (split; [reflexivity|]); right; eauto.
Qed.
Print Assumptions C57_no_panic.
Example C48_case : RIndex (lit "abcabc") (lit "bc") = 1%Z /\ RLastIndex (lit "abcabc") (lit "bc") = 4%Z /\ IndexAny (lit "abcabc") (lit "xc") = 2%Z
  /\ appendMerge [1; 3; 7] [2; 3; 9] = [1; 2; 3; 7; 9] /\ reverseSegments [1; 2; 3] = [3; 2; 1].
Proof. vm_compute. auto. Qed.
Example C57_case : getTableIndex 17 = 31%Z /\ getTableIndex 5000 = 1023%Z /\ getTableIndex 16 = 15%Z.
Proof. vm_compute. auto. Qed.
