(** * Theorems C60: the accuracy measurements. *)
From Coq Require Import String.
From Coq Require Import ZArith NArith Arith List Bool Permutation Lia.
From Verif Require Import Utf8 GoStr CmModel CmSpec CmProofs CmIndex CmProps CmSaveProps CmAcc.
Import ListNotations.
Open Scope nat_scope.

Lemma trials_count (trial : Trial -> Prop) n c t c' t' : trials trial n c t (inr (c', t')) -> c <= c' /\ t <= t' <= t + n /\ c' - c <= t' - t /\ ((forall b, b = Passed -> ~ trial b) -> t' = t + n).
Proof.
  intros H. remember (inr (c', t')) as r eqn:E. revert E. induction H as [c t|n c t b P|n c t r P H IH|n c t b r P H IH]; intros E.
  - injection E as <- <-. repeat split; lia.
  - discriminate.
  - destruct (IH E) as [I1 [I2 [I3 I4]]]. repeat split; try lia. intros N. exfalso. exact (N _ eq_refl P).
  - destruct (IH E) as [I1 [I2 [I3 I4]]]. destruct b; repeat split; try lia; intros N; rewrite (I4 N); lia.
Qed.
Lemma split_nonempty s : split_spaces s <> [].
Proof. destruct s as [|c s]; cbn; [discriminate|]. destruct (c =? 32)%Z; [discriminate|]. destruct (split_spaces s); discriminate. Qed.
Lemma no_passed_letters cm : ~ letters_trial cm Passed.
Proof. intros H. inversion H as [| |orig test t C M A]; subst. inversion A. Qed.
(** The percentage is between 0 and 100: at most 200 trials count, and no more are right than count.  AccuracyMutatingLetters counts exactly 200. *)
Theorem C60_words_bounds cm c t : AccuracyMutatingWords cm (inr (c, t)) -> c <= t <= 200.
Proof. intros H. apply trials_count in H. lia. Qed.
Theorem C60_letters_bounds cm c t : AccuracyMutatingLetters cm (inr (c, t)) -> t = 200 /\ c <= 200.
Proof. intros H. apply trials_count in H. destruct H as [H1 [H2 [H3 H4]]]. split; [|lia]. apply H4. intros b -> K. exact (no_passed_letters cm K). Qed.
(** On an index without words both panic while holding the mutex, so a later Closest after a recover would wait for ever. *)
Lemma chosen_empty cm o : ID cm = [] -> chosen cm o -> o = None.
Proof. intros E H. inversion H as [|order N|order num id k n L]; subst; [reflexivity|contradiction|]. rewrite E in L. cbn in L. lia. Qed.
Theorem C60_empty_panics lower sizes cm : New lower [] sizes cm ->
  (forall r, AccuracyMutatingWords cm r <-> r = inl true) /\ (forall r, AccuracyMutatingLetters cm r <-> r = inl true).
Proof.
  intros A. inversion A; subst. set (cm := {| SubstringSizes := sizes; SubstringToID := []; ID := [] |}) in *. assert (E : ID cm = []) by reflexivity.
  split; intros r; (split; [intros H|intros ->; apply tr_panic; constructor; constructor; exact E]); inversion H as [|n c t b P|n c t r' P|n c t b r' P]; subst; inversion P as [| orig C|orig test t' C]; subst; try (apply chosen_empty in C; [discriminate|exact E]); try reflexivity.
Qed.
(** With exactly one word (of any kind) no trial ever uses it: AccuracyMutatingLetters panics, AccuracyMutatingWords returns 0/0. *)
Lemma chosen_one cm e o : ID cm = [e] -> chosen cm o -> o = Some [].
Proof. intros E H. inversion H as [X|order N|order num id k n L L0]; subst; [congruence|reflexivity|]. rewrite E in L. cbn in L. lia. Qed.
Lemma New_one lower w sizes cm : New lower [w] sizes cm -> exists e, ID cm = [e].
Proof. intros A. inversion A as [|? ? ? ? order ? P A']; subst. inversion A'; subst. cbn. eauto. Qed.
Theorem C60_one_word lower w sizes cm : New lower [w] sizes cm ->
  (forall r, AccuracyMutatingLetters cm r <-> r = inl false) /\ (forall r, AccuracyMutatingWords cm r <-> r = inr (0, 0)).
Proof.
  intros A. destruct (New_one _ _ _ _ A) as [e E]. assert (C0 : chosen cm (Some [])) by (apply (ch_zero cm (ID cm)); [rewrite E; discriminate|reflexivity]). split; intros r.
  - split; [|intros ->; apply tr_panic; apply (lt_panic cm []); [exact C0|constructor; reflexivity]].
    intros H. assert (X : forall t, letters_trial cm t -> t = Panics false).
    { intros t T. inversion T as [C|orig C M|orig test t' C M]; subst; apply (chosen_one cm e) in C; try exact E; try discriminate; [reflexivity|]. injection C as ->. inversion M; subst; cbn in *; lia. }
    inversion H as [|n c t b P|n c t r' P|n c t b r' P]; subst; apply X in P; try discriminate. injection P as ->. reflexivity.
  - assert (X : forall t, words_trial cm t <-> t = Passed).
    { intros t. split; [|intros ->; apply (wt_pass cm []); [exact C0|apply mw0_skip; cbn; lia]]. intros T. inversion T as [C|orig C M|orig test t' C M]; subst; apply (chosen_one cm e) in C; try exact E; try discriminate; [reflexivity|]. injection C as ->.
      exfalso. inversion M as [|d L|L|d L|ws D r0 M2]; subst; cbn [split_spaces length] in *; try lia. destruct D as [[_ ->]|[L _]]; [|lia]. inversion M2; subst. contradiction. }
    assert (Y : forall n r, trials (words_trial cm) n 0 0 r <-> r = inr (0, 0)).
    { induction n as [|n IH]; intros r'; split; intros H.
      - inversion H; subst; reflexivity.
      - subst. constructor.
      - inversion H as [|n' c t b P|n' c t r'' P|n' c t b r'' P]; subst; try (apply X in P; discriminate). apply IH. assumption.
      - subst. apply tr_pass; [apply X; reflexivity|]. apply IH. reflexivity. }
    apply Y.
Qed.
(** More generally AccuracyMutatingLetters can panic on every list: it does as soon as one of the 200 draws is 0. *)
Theorem C60_letters_panics_refuted lower w ws sizes cm : New lower (w :: ws) sizes cm -> AccuracyMutatingLetters cm (inl false).
Proof.
  intros A. apply tr_panic. apply (lt_panic cm []); [|constructor; reflexivity]. apply (ch_zero cm (ID cm)); [|reflexivity].
  inversion A as [|? ? ? ? order ? P A']; subst. intros E. assert (X : forall cm i vs cm', Adds lower cm i vs cm' -> ID cm <> [] -> ID cm' <> []).
  { clear. induction 1 as [|cm i s rest order cm' P A IH]; intros N; [exact N|]. apply IH. cbn. destruct (ID cm) as [|[a b] l]; [contradiction|]. cbn. destruct N.eq_dec; discriminate. }
  apply (X _ _ _ _ A'); [cbn; discriminate|exact E].
Qed.

(** AccuracyMutatingWords on a non-empty list without the empty word never panics. *)
Lemma removed_length {A} d (l : list A) : d < length l -> length (remove_at d l) = length l - 1.
Proof. intros L. unfold remove_at. rewrite app_length, firstn_length, skipn_length. lia. Qed.
Theorem C60_words_never_panics lower ws sizes cm b : lower [] = [] -> New lower ws sizes cm -> fits ws -> ws <> [] -> ~ In [] ws -> ~ AccuracyMutatingWords cm (inl b).
Proof.
  intros L A F NE N H. assert (X : forall b, ~ words_trial cm (Panics b)).
  { intros b' T. inversion T as [C| |orig test t C M K]; subst.
    - inversion C as [E| |]; subst. destruct ws as [|w ws]; [contradiction|]. pose proof (C60_letters_panics_refuted _ _ _ _ _ A) as Q.
      assert (Q2 : forall r, AccuracyMutatingLetters cm r -> r = inl true). { intros r R. inversion R as [|n c t b0 P|n c t r' P|n c t b0 r' P]; subst; inversion P as [| orig C'|orig test t' C']; subst; try (apply chosen_empty in C'; [discriminate|exact E]); reflexivity. }
      apply Q2 in Q. discriminate.
    - inversion K as [K'|]; subst. apply (C26_crashes_iff lower ws sizes cm test L A F) in K'. destruct K' as [_ K']. contradiction. }
  assert (Y : forall n c t, ~ trials (words_trial cm) n c t (inl b)).
  { induction n as [|n IH]; intros c t H'; inversion H' as [|n' c' t' b' P|n' c' t' r'' P H2|n' c' t' b' r'' P H2]; subst; [exact (X _ P)|exact (IH _ _ H2)|exact (IH _ _ H2)]. }
  exact (Y _ _ _ H).
Qed.
(** What AccuracyMutatingLetters asks for: the word with one byte replaced by a small letter, removed, or preceded by a small letter (so never
    a letter behind the last one). *)
Definition small_letter (c : Z) : Prop := In c (lit "abcdefghijklmnopqrstuvwxyz").
Lemma letter_small c : letter c -> small_letter c.
Proof.
  unfold letter, small_letter. intros H. assert (E : exists k, k < 26 /\ c = (97 + Z.of_nat k)%Z) by (exists (Z.to_nat (c - 97)); lia). destruct E as [k [K ->]].
  do 26 (destruct k as [|k]; [cbn; tauto|]). lia.
Qed.
Inductive one_edit : str -> str -> Prop :=
  | e_replace a x c b : small_letter c -> one_edit (a ++ x :: b) (a ++ c :: b)
  | e_remove a x b : one_edit (a ++ x :: b) (a ++ b)
  | e_precede a x c b : small_letter c -> one_edit (a ++ x :: b) (a ++ c :: x :: b).
Lemma cut_at (s : str) i : i < length s -> exists a x b, s = a ++ x :: b /\ firstn i s = a /\ skipn (S i) s = b /\ skipn i s = x :: b.
Proof.
  revert s. induction i as [|i IH]; intros [|y s] L; cbn in L; try lia; [exists [], y, s; auto|]. destruct (IH s ltac:(lia)) as [a [x [b [E [E1 [E2 E3]]]]]]. exists (y :: a), x, b. cbn [firstn skipn app]. rewrite E1. split; [congruence|]. split; [reflexivity|]. split; assumption.
Qed.
Lemma put_length {K V} (dec : forall a b : K, {a = b} + {a <> b}) (m : list (K * V)) k v : length (put dec m k v) <= S (length m).
Proof. induction m as [|[k' v'] m IH]; cbn [put length]; [lia|]. destruct dec; cbn [length]; lia. Qed.
Lemma Adds_length lower cm i ws cm' : Adds lower cm i ws cm' -> length (ID cm') <= length (ID cm) + length ws.
Proof. induction 1 as [|cm i s rest order cm' P A IH]; [lia|]. cbn [add_word ID length] in *. pose proof (put_length N.eq_dec (ID cm) (uint32 i) (s, length order)). lia. Qed.
Theorem C60_letters_asks lower ws sizes cm b : New lower ws sizes cm -> fits ws -> letters_trial cm (Counted b) ->
  exists orig test res, one_edit orig test /\ Closest cm test res /\ In orig ws /\ 2 <= length ws /\ (b = true <-> res = orig).
Proof.
  intros A F T. inversion T as [| |orig test t C M K]; subst. inversion K as [|res R]; subst. exists orig, test, res.
  assert (NE : orig <> []) by (intros ->; inversion M; subst; cbn in *; lia).
  split; [|split; [exact R|]].
  { inversion M as [|i c L Lc|i L|i c L Lc]; subst; destruct (cut_at orig i L) as [a [x [b [E [E1 [E2 E3]]]]]]; unfold replace_at, remove_at; rewrite ?E1, ?E2, ?E3, E; constructor; apply letter_small; exact Lc. }
  inversion C as [|order N|order num id k n L L0 P I]; subst; [contradiction|]. split; [|split; [|apply eqs_iff]].
  - destruct (Adds_keys _ _ _ _ _ A) as [_ X]. assert (I' : In (id, (orig, n)) (ID cm)) by (eapply Permutation_in; [exact P|]; eapply nth_error_In; exact I). apply X in I'. destruct I' as [[]|I']. exact I'.
  - pose proof (Adds_length _ _ _ _ _ A) as X. cbn in X. lia.
Qed.
(** What AccuracyMutatingWords asks for, in terms of the words between spaces: one left out of three or more; one left out of two or more and the
    rest reversed; or one left out of two or more (none of a single one) and the rest in any order, with at most two bytes replaced by small letters; the words are written with one space between them. *)
Definition spaced (ws : list str) : str := tl (flat_map (fun w => 32%Z :: w) ws).
Definition words_of (s : str) (W : list str) : Prop := s = spaced W /\ W <> [] /\ Forall (fun w => ~ In 32%Z w) W.
Inductive words_edit (W : list str) : str -> Prop :=
  | we_drop a w b : W = a ++ w :: b -> 3 <= length W -> words_edit W (spaced (a ++ b))
  | we_reverse a w b : W = a ++ w :: b -> 2 <= length W -> words_edit W (spaced (rev (a ++ b)))
  | we_shuffle a w b ws x c1 y c2 z : W = a ++ w :: b -> Permutation ws (a ++ b) \/ (a ++ b = [] /\ ws = W) ->
      small_letter c1 -> small_letter c2 -> (exists p q, spaced ws = x ++ p :: y ++ q :: z) -> words_edit W (x ++ c1 :: y ++ c2 :: z)
  | we_shuffle1 a w b ws x c p z : W = a ++ w :: b -> Permutation ws (a ++ b) \/ (a ++ b = [] /\ ws = W) ->
      small_letter c -> spaced ws = x ++ p :: z -> words_edit W (x ++ c :: z).
Lemma join_spaced ws : join_spaces ws = spaced ws.
Proof. unfold spaced. induction ws as [|w [|v ws] IH]; [reflexivity|cbn; rewrite app_nil_r; reflexivity|]. cbn [join_spaces]. cbn [join_spaces] in IH. rewrite IH. reflexivity. Qed.
Lemma split_words s : words_of s (split_spaces s).
Proof.
  split; [|split; [apply split_nonempty|]].
  - unfold spaced. induction s as [|c s IH]; [reflexivity|]. cbn [split_spaces]. destruct (Z.eqb_spec c 32) as [->|N].
    + cbn [flat_map app tl]. pose proof (split_nonempty s) as Ne. destruct (split_spaces s) as [|w ws]; [contradiction|]. cbn [flat_map app tl] in *. rewrite <- IH. reflexivity.
    + pose proof (split_nonempty s) as Ne. destruct (split_spaces s) as [|w ws]; [contradiction|]. cbn [flat_map app tl] in *. rewrite <- IH. reflexivity.
  - induction s as [|c s IH]; [repeat constructor; intros []|]. cbn [split_spaces]. destruct (Z.eqb_spec c 32) as [->|N]; [constructor; [intros []|exact IH]|].
    destruct (split_spaces s) as [|w ws]; [repeat constructor; intros [E|[]]; congruence|]. inversion IH; subst. constructor; [|assumption]. intros [E|E]; [congruence|contradiction].
Qed.
Lemma set_nth_same_length {A} (l : list A) i x : length (set_nth l i x) = length l.
Proof. revert i. induction l as [|a l IH]; intros [|i]; cbn; auto. Qed.
Lemma swap_perm {A} (l : list A) i j a b : nth_error l i = Some a -> nth_error l j = Some b -> j <= i -> Permutation (set_nth (set_nth l i b) j a) l.
Proof.
  revert i j. induction l as [|x l IH]; intros [|i] [|j] H1 H2 L; try discriminate; try lia.
  - cbn in *. injection H1 as ->. constructor. reflexivity.
  - cbn in *. injection H2 as ->. destruct (set_nth_split l i b a H1) as [u [v [-> [-> _]]]]. 
    rewrite <- (Permutation_middle u v b), <- (Permutation_middle u v a). apply perm_swap.
  - cbn in *. constructor. apply IH; [assumption|assumption|lia].
Qed.
Lemma shuffle_perm i ws ws' : shuffle i ws ws' -> Permutation ws' ws.
Proof. induction 1 as [|i j ws a b ws' L1 L2 H1 H2 H IH]; [reflexivity|]. rewrite IH. apply swap_perm; assumption. Qed.
Lemma cut_at' {A} (s : list A) i : i < length s -> exists a x b, s = a ++ x :: b /\ firstn i s = a /\ skipn (S i) s = b /\ length a = i.
Proof.
  revert s. induction i as [|i IH]; intros [|y s] L; cbn in L; try lia; [exists [], y, s; auto|]. destruct (IH s ltac:(lia)) as [a [x [b [E [E1 [E2 E3]]]]]]. exists (y :: a), x, b. cbn [firstn skipn app]. rewrite E1. split; [congruence|]. split; [reflexivity|]. split; [assumption|]. cbn. lia.
Qed.
Lemma two_edits s i1 c1 i2 c2 : i1 < length s -> i2 < length (replace_at i1 c1 s) ->
  (exists x y z p q d1 d2, s = x ++ p :: y ++ q :: z /\ replace_at i2 c2 (replace_at i1 c1 s) = x ++ d1 :: y ++ d2 :: z /\ ((d1 = c1 /\ d2 = c2) \/ (d1 = c2 /\ d2 = c1)))
  \/ (exists x z p, s = x ++ p :: z /\ replace_at i2 c2 (replace_at i1 c1 s) = x ++ c2 :: z).
Proof.
  intros L1. destruct (cut_at' s i1 L1) as [a [x [b [E [E1 [E2 E3]]]]]]. unfold replace_at at 1. rewrite E1, E2. intros L2. unfold replace_at at 2 4. rewrite E1, E2. subst s.
  destruct (cut_at' _ i2 L2) as [a' [x' [b' [F [F1 [F2 F3]]]]]]. unfold replace_at. rewrite F1, F2. clear E1 E2 F1 F2 L1 L2.
  destruct (Nat.lt_trichotomy i1 i2) as [Q|[Q|Q]].
  - left. assert (X : exists y, a' = a ++ c1 :: y /\ b = y ++ x' :: b').
    { clear - F E3 F3 Q. revert a' i1 i2 E3 F3 Q F. induction a as [|h a IH]; intros [|h' a'] i1 i2 E3 F3 Q F; cbn in *; try lia; injection F as <- F; [exists a'; auto|]. destruct (IH a' (length a) (length a') eq_refl eq_refl ltac:(lia) F) as [y [-> ->]]. exists y. auto. }
    destruct X as [y [-> ->]]. exists a, y, b', x, x', c1, c2. split; [reflexivity|]. split; [rewrite <- app_assoc; reflexivity|auto].
  - right. assert (X : a' = a /\ b' = b).
    { clear - F E3 F3 Q. revert a' i1 i2 E3 F3 Q F. induction a as [|h a IH]; intros [|h' a'] i1 i2 E3 F3 Q F; cbn in *; try lia; injection F as <- F; [auto|]. destruct (IH a' (length a) (length a') eq_refl eq_refl ltac:(lia) F) as [-> ->]. auto. }
    destruct X as [-> ->]. exists a, b, x. auto.
  - left. assert (X : exists y, a = a' ++ x' :: y /\ b' = y ++ c1 :: b).
    { clear - F E3 F3 Q. revert a' i1 i2 E3 F3 Q F. induction a as [|h a IH]; intros [|h' a'] i1 i2 E3 F3 Q F; cbn in *; try lia; injection F as <- F; [exists a; auto|]. destruct (IH a' (length a) (length a') eq_refl eq_refl ltac:(lia) F) as [y [-> ->]]. exists y. auto. }
    destruct X as [y [-> ->]]. exists a', y, b, x', x, c2, c1. split; [rewrite <- app_assoc; reflexivity|]. split; [reflexivity|auto].
Qed.
Theorem C60_words_asks lower ws sizes cm b : New lower ws sizes cm -> fits ws -> words_trial cm (Counted b) ->
  exists orig W test res, words_of orig W /\ words_edit W test /\ Closest cm test res /\ In orig ws /\ 2 <= length ws /\ (b = true <-> res = orig).
Proof.
  intros A F T. inversion T as [| |orig test t C M K]; subst. inversion K as [|res R]; subst. exists orig, (split_spaces orig), test, res. split; [apply split_words|].
  split; [|split; [exact R|]].
  - inversion M as [|d L3 L|L|d L2 L|vs D r M2]; subst.
    + destruct (cut_at' _ d L) as [a [x [e [E [E1 [E2 _]]]]]]. unfold remove_at. rewrite E1, E2, join_spaced. eapply we_drop; eassumption.
    + destruct (cut_at' _ d L) as [a [x [e [E [E1 [E2 _]]]]]]. unfold remove_at. rewrite E1, E2, join_spaced. eapply we_reverse; eassumption.
    + assert (X : exists a w e, split_spaces orig = a ++ w :: e /\ (Permutation vs (a ++ e) \/ (a ++ e = [] /\ vs = split_spaces orig))).
      { destruct D as [[L ->]|[L [d [Ld Sh]]]].
        - pose proof (split_nonempty orig) as N. destruct (split_spaces orig) as [|w [|w' l]]; [contradiction| |cbn in L; lia]. exists [], w, []. auto.
        - destruct (cut_at' _ d Ld) as [a [x [e [E [E1 [E2 _]]]]]]. exists a, x, e. split; [exact E|]. left. apply shuffle_perm in Sh. unfold remove_at in Sh. rewrite E1, E2 in Sh. exact Sh. }
      destruct X as [a [w [e [E X]]]]. inversion M2 as [|s i1 c1 i2 c2 Ns L1 Lc1 L2 Lc2]; subst. destruct (two_edits _ _ c1 _ c2 L1 L2) as [[x [y [z [p [q [d1 [d2 [E1 [-> Dd]]]]]]]]]|[x [z [p [E1 ->]]]]].
      * eapply we_shuffle; [exact E|exact X| | |exists p, q; rewrite <- join_spaced; exact E1]; destruct Dd as [[-> ->]|[-> ->]]; apply letter_small; assumption.
      * eapply we_shuffle1; [exact E|exact X|apply letter_small; exact Lc2|rewrite <- join_spaced; exact E1].
  - assert (NE : orig <> []).
    { intros ->. inversion M as [|d L3 L|L|d L2 L|vs D r M2]; subst; cbn [split_spaces length] in *; try lia. destruct D as [[_ ->]|[L _]]; [|lia]. inversion M2; subst. contradiction. }
    inversion C as [|order N|order num id k n L L0 P I]; subst; [contradiction|]. split; [|split; [|apply eqs_iff]].
    + destruct (Adds_keys _ _ _ _ _ A) as [_ X]. assert (I' : In (id, (orig, n)) (ID cm)) by (eapply Permutation_in; [exact P|]; eapply nth_error_In; exact I). apply X in I'. destruct I' as [[]|I']. exact I'.
    + pose proof (Adds_length _ _ _ _ _ A) as X. cbn in X. lia.
Qed.
(** A word is passed over only if it has fewer than three words between spaces (or is the empty string that stands for "none chosen"). *)
Theorem C60_words_passed lower ws sizes cm : New lower ws sizes cm -> words_trial cm Passed ->
  exists orig W, (In orig ws \/ orig = []) /\ words_of orig W /\ (length W < 3 \/ exists a w b, W = a ++ w :: b /\ Forall (fun v => v = []) (a ++ b)).
Proof.
  intros A T. inversion T as [|orig C M|orig test t C M K]; subst; [|inversion K]. exists orig, (split_spaces orig). split; [|split; [apply split_words|]].
  - inversion C as [|order N|order num id k n L L0 P I]; subst; [right; reflexivity|left].
    destruct (Adds_keys _ _ _ _ _ A) as [_ X]. assert (I' : In (id, (orig, n)) (ID cm)) by (eapply Permutation_in; [exact P|]; eapply nth_error_In; exact I). apply X in I'. destruct I' as [[]|I']. exact I'.
  - inversion M as [L|d L3 L|L|d L2 L|vs D r M2]; subst; [left; exact L|left; lia|]. destruct D as [[L ->]|[L [d [Ld Sh]]]]; [left; lia|]. right.
    destruct (cut_at' _ d Ld) as [a [x [e [E [E1 [E2 _]]]]]]. exists a, x, e. split; [exact E|]. apply shuffle_perm in Sh. unfold remove_at in Sh. rewrite E1, E2 in Sh.
    inversion M2 as [Q|]; subst. symmetry in Q. assert (Fv : Forall (fun v : str => v = []) vs).
    { destruct vs as [|v [|v' vs]]; [constructor|cbn in Q; subst v; repeat constructor|]. exfalso. cbn in Q. destruct v; discriminate. }
    eapply Permutation_Forall; [exact Sh|exact Fv].
Qed.
(** ** Not vacuous: a list on which both can return a number. *)
Lemma trials_repeat (trial : Trial -> Prop) b : trial (Counted b) -> forall n c t, trials trial n c t (inr (if b then n + c else c, n + t)).
Proof.
  intros T. induction n as [|n IH]; intros c t; [destruct b; constructor|]. eapply tr_count; [exact T|]. specialize (IH (if b then S c else c) (S t)). replace (S n + t) with (n + S t) by lia. destruct b; [replace (S n + c) with (n + S c) by lia|]; exact IH.
Qed.
Example C60_case : exists cm b, New ascii_lower [lit "red apple pie"; lit "big moon"] [2] cm /\ letters_trial cm (Counted b) /\ words_trial cm (Counted b) /\
  AccuracyMutatingLetters cm (inr (if b then 200 + 0 else 0, 200 + 0)).
Proof.
  set (ws := [lit "red apple pie"; lit "big moon"]). destruct (New_exists ascii_lower ws [2]) as [cm A]. exists cm. assert (Ft : fits ws) by (vm_compute; discriminate).
  assert (Q : exists n, chosen cm (Some (lit "red apple pie")) /\ length (ID cm) = n).
  { inversion A as [|? ? ? ? o1 ? P1 A1]; subst. inversion A1 as [|? ? ? ? o2 ? P2 A2]; subst. inversion A2; subst. eexists. split; [|reflexivity]. eapply (ch_some _ _ 1); [cbn; lia|lia|reflexivity|]. cbn. reflexivity. }
  destruct Q as [_ [Q _]].
  assert (W : forall test, test <> [] -> exists res, Closest cm test res).
  { intros test N. destruct (C27_answers cm test 1) as [l C]; [rewrite (C26_crashes_iff ascii_lower ws [2]); [intros [? _]; contradiction|reflexivity|exact A|exact Ft]|]. eexists. apply C27_Closest_first. eauto. }
  assert (B : forall test, In test [lit "ed apple pie"; lit "red apple"] -> forall res, Closest cm test res -> eqs res (lit "red apple pie") = true).
  { intros test It res C. apply eqs_iff. destruct (C27_Closest_best _ _ _ _ _ _ A Ft C) as [[I [Sh B]]|[_ N]].
    - destruct I as [I|[I|[]]]; [auto|]. exfalso. rewrite <- I in Sh. destruct Sh as [g [G1 G2]]. apply splitWord_gram in G1. apply splitWord_gram in G2. revert G1 G2. destruct It as [<-|[<-|[]]]; vm_compute; intros G1 G2; repeat (destruct G1 as [<-|G1]; [repeat (destruct G2 as [G2|G2]; [discriminate|]); exact G2|]); exact G1.
    - exfalso. apply (N (lit "red apple pie")); [left; reflexivity|]. exists (lit "le"). split; apply splitWord_gram; destruct It as [<-|[<-|[]]]; vm_compute; tauto. }
  exists true. assert (T1 : letters_trial cm (Counted true)).
  { destruct (W (lit "ed apple pie") ltac:(discriminate)) as [res C]. rewrite <- (B _ (or_introl eq_refl) _ C). apply (lt_ask cm (lit "red apple pie") (lit "ed apple pie")); [exact Q| |constructor; exact C]. replace (lit "ed apple pie") with (remove_at 0 (lit "red apple pie")) by (vm_compute; reflexivity). apply ml_delete. vm_compute. repeat constructor. }
  assert (T2 : words_trial cm (Counted true)).
  { destruct (W (lit "red apple") ltac:(discriminate)) as [res C]. rewrite <- (B _ (or_intror (or_introl eq_refl)) _ C). apply (wt_ask cm (lit "red apple pie") (lit "red apple")); [exact Q| |constructor; exact C]. replace (lit "red apple") with (join_spaces (remove_at 2 (split_spaces (lit "red apple pie")))) by (vm_compute; reflexivity). apply mw0; vm_compute; repeat constructor. }
  split; [exact A|]. split; [exact T1|]. split; [exact T2|]. exact (trials_repeat _ true T1 200 0 0).
Qed.
Print Assumptions C60_words_bounds.
Print Assumptions C60_letters_bounds.
Print Assumptions C60_empty_panics.
Print Assumptions C60_one_word.
Print Assumptions C60_letters_panics_refuted.
Print Assumptions C60_words_never_panics.
Print Assumptions C60_letters_asks.
Print Assumptions C60_words_passed.
Print Assumptions C60_words_asks.
