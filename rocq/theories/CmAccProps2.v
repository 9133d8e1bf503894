(** * C60: every test the two functions can make. *)
From Coq Require Import String.
From Coq Require Import ZArith NArith Arith List Bool Lia Permutation.
From Verif Require Import Utf8 GoStr CmModel CmSpec CmProofs CmIndex CmProps CmSaveProps CmAcc CmAccProps CmdProofs CmdProps.
Import ListNotations.
Open Scope nat_scope.

(** ** All words can be drawn *)
Lemma Adds_old lower cm i ws cm' id : Adds lower cm i ws cm' -> (forall j, j < length ws -> uint32 (i + j) <> id) -> get N.eq_dec (ID cm') id = get N.eq_dec (ID cm) id.
Proof.
  induction 1 as [|cm i s rest order cm' P A IH]; intros H; [reflexivity|]. rewrite IH.
  - unfold add_word. cbn [ID]. rewrite get_put. destruct N.eq_dec as [E|]; [|reflexivity]. exfalso. apply (H 0); [cbn; lia|]. rewrite Nat.add_0_r. congruence.
  - intros j L. replace (S i + j) with (i + S j) by lia. apply H. cbn. lia.
Qed.
Lemma Adds_get lower cm i ws cm' : Adds lower cm i ws cm' -> (N.of_nat (i + length ws) <= 2 ^ 32)%N -> forall j w, nth_error ws j = Some w -> exists n, get N.eq_dec (ID cm') (uint32 (i + j)) = Some (w, n).
Proof.
  induction 1 as [cm i|cm i s rest order cm' P A IH]; intros B j w H; [destruct j; discriminate|]. cbn [length] in B. destruct j as [|j].
  - cbn in H. injection H as <-. rewrite Nat.add_0_r. erewrite Adds_old; [|exact A|].
    + unfold add_word. cbn [ID]. rewrite get_put. destruct N.eq_dec; [eexists; reflexivity|contradiction].
    + intros j L E. apply uint32_inj in E; lia.
  - replace (i + S j) with (S i + j) by lia. apply IH; [|exact H]. replace (S i + length rest) with (i + S (length rest)) by lia. exact B.
Qed.
Lemma get_some_in {K V} (dec : forall a b : K, {a = b} + {a <> b}) (m : list (K * V)) k v : get dec m k = Some v -> In (k, v) m.
Proof. induction m as [|[a b] m IH]; cbn [get]; [discriminate|]. destruct (dec k a) as [->|]; intros E; [injection E as ->; left; reflexivity|right; auto]. Qed.
Lemma all_chosen lower ws sizes cm w : New lower ws sizes cm -> fits ws -> 2 <= length ws -> In w ws -> chosen cm (Some w).
Proof.
  intros A F L I. pose proof (Adds_get _ _ _ _ _ A F) as G. destruct (In_nth_error _ _ I) as [j J]. destruct (G j w J) as [n E]. apply get_some_in in E.
  destruct (in_split _ _ E) as [a [b SP]]. apply (ch_some cm ((uint32 (0 + j), (w, n)) :: a ++ b) 1 (uint32 (0 + j)) w n); [|lia|rewrite SP; apply Permutation_middle|reflexivity].
  assert (JL : j < length ws) by (apply nth_error_Some; congruence).
  assert (O : exists i v, i <> j /\ nth_error ws i = Some v).
  { assert (K : forall i, i < length ws -> exists v, nth_error ws i = Some v) by (intros i Li; apply nth_error_Some in Li; destruct (nth_error ws i) as [v|]; [exists v; reflexivity|contradiction]).
    destruct j as [|j]; [destruct (K 1 ltac:(lia)) as [v V]; exists 1, v|destruct (K 0 ltac:(lia)) as [v V]; exists 0, v]; (split; [lia|exact V]). }
  destruct O as [i [v [Ne V]]]. destruct (G i v V) as [n' E']. apply get_some_in in E'. assert (IL : i < length ws) by (apply nth_error_Some; congruence).
  rewrite SP in *. apply in_app_or in E'. rewrite app_length. cbn [length].
  assert (X : In (uint32 (0 + i), (v, n')) (a ++ b)).
  { apply in_or_app. destruct E' as [K|[K|K]]; [left; exact K| |right; exact K]. exfalso. assert (H : uint32 (0 + j) = uint32 (0 + i)) by congruence. apply Ne. unfold fits in F. apply uint32_inj in H; lia. }
  destruct a, b; cbn [length app] in *; try lia. destruct X.
Qed.
Lemma small_letter_letter c : small_letter c -> letter c.
Proof. unfold small_letter, letter. cbn. intros H. repeat (destruct H as [<-|H]; [lia|]). destruct H. Qed.
Lemma first_app {A} (a b : list A) : firstn (length a) (a ++ b) = a.
Proof. rewrite firstn_app, Nat.sub_diag, firstn_all, firstn_O, app_nil_r. reflexivity. Qed.
Lemma skip_app {A} (a b : list A) : skipn (length a) (a ++ b) = b.
Proof. rewrite skipn_app, Nat.sub_diag, skipn_all. reflexivity. Qed.
Lemma skip_cons {A} (a : list A) x b : skipn (S (length a)) (a ++ x :: b) = b.
Proof. induction a as [|y a IH]; [reflexivity|exact IH]. Qed.
(** Conversely to C60_letters_asks: every word of the index, with every such edit of it, can be a test, and counts as right or wrong as its answer is. *)
Theorem C60_letters_asks_all lower ws sizes cm orig test res : New lower ws sizes cm -> fits ws -> 2 <= length ws -> In orig ws -> one_edit orig test -> Closest cm test res ->
  exists b, letters_trial cm (Counted b) /\ (b = true <-> res = orig).
Proof.
  intros A F L I E R. exists (eqs res orig). split; [|apply eqs_iff]. apply (lt_ask cm orig test); [apply (all_chosen lower ws sizes); assumption| |constructor; exact R].
  destruct E as [a x c b Sc|a x b|a x c b Sc].
  - rewrite <- (first_app a (x :: b)) at 2. rewrite <- (skip_cons a x b) at 3. apply ml_replace; [rewrite app_length; cbn; lia|apply small_letter_letter, Sc].
  - replace (a ++ b) with (remove_at (length a) (a ++ x :: b)) by (unfold remove_at; rewrite first_app, skip_cons; reflexivity). apply ml_delete. rewrite app_length. cbn. lia.
  - pose proof (ml_add (a ++ x :: b) (length a) c) as M. rewrite first_app, skip_app in M. apply M; [rewrite app_length; cbn; lia|apply small_letter_letter, Sc].
Qed.
Print Assumptions C60_letters_asks_all.

(** ** Every order of the words *)
Lemma shuffle_prefix ws k : k <= length ws -> forall l, Permutation l (firstn k ws) -> forall ws', shuffle k (l ++ skipn k ws) ws' -> shuffle 0 ws ws'.
Proof.
  induction k as [|k IH]; intros L l P ws' H.
  - apply Permutation_sym, Permutation_nil in P. subst l. exact H.
  - destruct (nth_error ws k) as [x|] eqn:X; [|apply nth_error_None in X; lia].
    assert (SK : skipn k ws = x :: skipn (S k) ws). { clear - X. revert ws X. induction k as [|k IH]; intros [|y ws] X; try discriminate; [injection X as ->; reflexivity|]. cbn [skipn]. exact (IH ws X). }
    assert (FK : firstn (S k) ws = firstn k ws ++ [x]). { clear - X. revert ws X. induction k as [|k IH]; intros [|y ws] X; try discriminate; [injection X as ->; reflexivity|]. cbn [firstn app]. f_equal. exact (IH ws X). }
    rewrite FK in P. assert (I : In x l) by (apply (Permutation_in _ (Permutation_sym P)), in_or_app; right; left; reflexivity). destruct (in_split _ _ I) as [u [v ->]].
    assert (P' : Permutation (u ++ v) (firstn k ws)). { apply (Permutation_cons_inv (a := x)). rewrite (Permutation_middle u v x), P. apply Permutation_sym, Permutation_cons_append. }
    assert (LK : length (u ++ v) = k) by (rewrite (Permutation_length P'), firstn_length; lia).
    destruct v as [|y v _] using rev_ind.
    + rewrite app_nil_r in *. apply (IH ltac:(lia) u P'). rewrite SK. apply (sh_swap k k _ x x); [rewrite app_length; cbn; lia|lia|..].
      * rewrite nth_error_app2, LK, Nat.sub_diag by lia. reflexivity.
      * rewrite nth_error_app2, LK, Nat.sub_diag by lia. reflexivity.
      * replace (set_nth (set_nth (u ++ x :: skipn (S k) ws) k x) k x) with ((u ++ [x]) ++ skipn (S k) ws); [exact H|].
        destruct (set_nth_split (u ++ x :: skipn (S k) ws) k x x) as [a [b [E1 [E2 E3]]]]; [rewrite nth_error_app2, LK, Nat.sub_diag by lia; reflexivity|].
        rewrite E2, <- E1. rewrite E2, <- E1. rewrite <- app_assoc. reflexivity.
    + apply (IH ltac:(lia) (u ++ y :: v)).
      { rewrite <- P'. apply Permutation_app_head. apply Permutation_cons_append. }
      assert (LM : length (u ++ y :: v) = k) by (rewrite app_length in *; rewrite app_length in LK; cbn [length] in *; lia).
      rewrite SK. apply (sh_swap k (length u) _ x y); [rewrite app_length; cbn; lia|rewrite app_length in LM; lia|rewrite nth_error_app2, LM, Nat.sub_diag by lia; reflexivity|rewrite <- app_assoc, nth_error_app2, Nat.sub_diag by lia; reflexivity|].
      replace (set_nth (set_nth ((u ++ y :: v) ++ x :: skipn (S k) ws) k y) (length u) x) with ((u ++ x :: v ++ [y]) ++ skipn (S k) ws); [exact H|].
      assert (S1 : forall (a b : list str) p q, set_nth (a ++ p :: b) (length a) q = a ++ q :: b) by (clear; induction a as [|h a IHa]; intros; cbn; [reflexivity|f_equal; apply IHa]).
      rewrite <- LM, S1, <- !app_assoc. cbn [app]. rewrite S1, <- !app_assoc. reflexivity.
Qed.
Lemma shuffle_all ws l : Permutation l ws -> shuffle 0 ws l.
Proof. intros P. apply (shuffle_prefix ws (length ws) (le_n _) l); [rewrite firstn_all; exact P|]. rewrite skipn_all, app_nil_r. constructor. rewrite (Permutation_length P). apply le_n. Qed.
Lemma words_unique s W : words_of s W -> W = split_spaces s.
Proof.
  intros [-> [N F]]. unfold spaced. destruct W as [|w W]; [contradiction|]. clear N. cbn [flat_map app tl]. revert w F. induction W as [|v W IH]; intros w F; inversion F as [|? ? F1 F2]; subst.
  - cbn [flat_map]. rewrite app_nil_r. clear F F2. induction w as [|c w IHw]; [reflexivity|]. cbn [split_spaces]. destruct (Z.eqb_spec c 32) as [->|]; [destruct F1; left; reflexivity|]. rewrite <- IHw by (intros X; apply F1; right; exact X). reflexivity.
  - cbn [flat_map]. clear F. induction w as [|c w IHw].
    + cbn [app split_spaces]. rewrite Z.eqb_refl. f_equal. apply IH, F2.
    + cbn [app split_spaces]. destruct (Z.eqb_spec c 32) as [->|]; [destruct F1; left; reflexivity|]. cbn [app] in IHw. rewrite <- IHw by (intros X; apply F1; right; exact X). reflexivity.
Qed.
Lemma replace_app c (a b : str) x : replace_at (length a) c (a ++ x :: b) = a ++ c :: b.
Proof. unfold replace_at. rewrite first_app, skip_cons. reflexivity. Qed.
Lemma remove_app {A} (a b : list A) x : remove_at (length a) (a ++ x :: b) = a ++ b.
Proof. unfold remove_at. rewrite first_app, skip_cons. reflexivity. Qed.
(** Conversely to C60_words_asks. *)
Theorem C60_words_asks_all lower ws sizes cm orig W test res : New lower ws sizes cm -> fits ws -> 2 <= length ws -> In orig ws -> words_of orig W -> words_edit W test -> Closest cm test res ->
  exists b, words_trial cm (Counted b) /\ (b = true <-> res = orig).
Proof.
  intros A F L I WO E R. exists (eqs res orig). split; [|apply eqs_iff]. apply (wt_ask cm orig test); [apply (all_chosen lower ws sizes); assumption| |constructor; exact R].
  pose proof (words_unique _ _ WO) as ->. clear WO A F L I R.
  assert (SH : forall a w b vs p z, split_spaces orig = a ++ w :: b -> Permutation vs (a ++ b) \/ (a ++ b = [] /\ vs = split_spaces orig) -> In p z -> spaced vs = z ->
    forall r, mutate_two (join_spaces vs) r -> mutate_words orig r).
  { intros a w b vs p z E0 P Ip Ez r M. apply (mw2 orig vs); [|exact M]. assert (LL : length (split_spaces orig) = S (length (a ++ b))) by (rewrite E0, !app_length; cbn; lia).
    destruct P as [P|[E1 ->]].
    - destruct (a ++ b) as [|h t] eqn:AB; [apply Permutation_sym, Permutation_nil in P; subst vs; cbn in Ez; subst z; destruct Ip|]. right. split; [rewrite LL; cbn; lia|]. exists (length a).
      split; [rewrite E0, app_length; cbn; lia|]. rewrite E0, remove_app, AB. apply shuffle_all, P.
    - left. rewrite LL, E1. split; [cbn; lia|reflexivity]. }
  destruct E as [a w b E0 L3|a w b E0 L2|a w b vs x c1 y c2 z E0 P S1 S2 [p [q Es]]|a w b vs x c p z E0 P S1 Es].
  - rewrite <- join_spaced. rewrite <- (remove_app a b w), <- E0. apply mw0; [exact L3|]. rewrite E0, app_length. cbn. lia.
  - rewrite <- join_spaced. rewrite <- (remove_app a b w), <- E0. apply mw1; [lia|]. rewrite E0, app_length. cbn. lia.
  - apply (SH a w b vs p (spaced vs) E0 P); [rewrite Es; apply in_or_app; right; left; reflexivity|reflexivity|]. rewrite join_spaced, Es.
    pose proof (m2 (x ++ p :: y ++ q :: z) (length x) c1 (length (x ++ c1 :: y)) c2) as M. rewrite replace_app in M.
    replace (x ++ c1 :: y ++ q :: z) with ((x ++ c1 :: y) ++ q :: z) in M by (rewrite <- app_assoc; reflexivity). rewrite replace_app in M.
    replace (x ++ c1 :: y ++ c2 :: z) with ((x ++ c1 :: y) ++ c2 :: z) by (rewrite <- app_assoc; reflexivity).
    apply M; [destruct x; discriminate|rewrite app_length; cbn; lia|apply small_letter_letter, S1|rewrite (app_length (x ++ c1 :: y)); cbn; lia|apply small_letter_letter, S2].
  - apply (SH a w b vs p (spaced vs) E0 P); [rewrite Es; apply in_or_app; right; left; reflexivity|reflexivity|]. rewrite join_spaced, Es.
    pose proof (m2 (x ++ p :: z) (length x) c (length x) c) as M. rewrite !replace_app in M.
    apply M; [destruct x; discriminate|rewrite app_length; cbn; lia|apply small_letter_letter, S1|rewrite app_length; cbn; lia|apply small_letter_letter, S1].
Qed.
Print Assumptions C60_words_asks_all.

(** Non-vacuity: a word of the index, an edit of it and its answer. *)
Example C60_case_all : exists cm res, New ascii_lower [lit "bank"; lit "mail"] [2] cm /\ one_edit (lit "bank") (lit "bonk") /\ Closest cm (lit "bonk") res.
Proof.
  destruct (New_exists ascii_lower [lit "bank"; lit "mail"] [2]) as [cm A]. destruct (closest_total cm (lit "bonk")) as [res R].
  - apply (no_crash ascii_lower [lit "bank"; lit "mail"] cm (lit "bonk")); [reflexivity|exact A|vm_compute; discriminate|discriminate].
  - exists cm, res. split; [exact A|]. split; [|exact R]. apply (e_replace (lit "b") 97%Z 111%Z (lit "nk")). cbn. tauto.
Qed.
