(** * C26-C30: the closest matcher. *)
From Coq Require Import String.
From Coq Require Import ZArith NArith Arith List Bool Permutation Lia.
From Verif Require Import Utf8 GoStr CmModel CmSpec CmProofs CmIndex.
Import ListNotations.
Open Scope nat_scope.

(** ** C26 *)
Lemma same_map m1 m2 : posmap m1 -> posmap m2 -> (forall k, val m1 k = val m2 k) -> Permutation m1 m2.
Proof.
  intros [N1 F1] [N2 F2] E. apply NoDup_Permutation; [exact (NoDup_map_inv _ _ N1)|exact (NoDup_map_inv _ _ N2)|].
  intros [k v]. rewrite (posmap_in m1), (posmap_in m2) by (split; assumption). rewrite E. tauto.
Qed.
(** Whatever the interleaving and the iteration orders, match returns the same map (m1, m2 list the entries of a Go map). *)
Theorem C26_schedule_independent cm q m1 m2 : match_ cm q m1 -> match_ cm q m2 -> Permutation m1 m2.
Proof.
  intros H1 H2. apply match_total in H1. apply match_total in H2. destruct H1 as [P1 [V1 _]], H2 as [P2 [V2 _]].
  apply same_map; [exact P1|exact P2|]. intros k. rewrite V1, V2. reflexivity.
Qed.
(** No schedule takes more than 6n+10 steps, n being the number of distinct substrings of the query. *)
Theorem C26_every_schedule_ends cm q order k s : Permutation order (splitWord (SubstringSizes cm) q) -> runs cm (length order) k (start order) s ->
  k <= 6 * length (splitWord (SubstringSizes cm) q) + 10.
Proof. intros P R. apply runs_measure in R. rewrite measure_start, (Permutation_length P) in R. lia. Qed.
(** A state from which nothing can happen is one in which match has returned and every worker has ended: no deadlock, and no
    goroutine is left behind. *)
Theorem C26_no_deadlock cm q order k s : Permutation order (splitWord (SubstringSizes cm) q) -> runs cm (length order) k (start order) s ->
  (forall o, ~ step cm (length order) s o) -> returned s = true /\ forall w, In w (workers s) -> w = Ended.
Proof.
  intros P R H. destruct (progress cm order s (Inv_runs _ _ _ _ R)) as [[F1 F2]|[o ST]]; [|exfalso; exact (H o ST)]. split; [exact F1|]. apply Forall_forall. exact F2.
Qed.
(** At most one worker is inside the critical section. *)
Theorem C26_mutual_exclusion cm q s i j g h : reachable cm q s ->
  nth_error (workers s) i = Some (Locked g) -> nth_error (workers s) j = Some (Locked h) -> i = j.
Proof.
  intros [order [k [_ R]]] H1 H2. pose proof (Inv_runs _ _ _ _ R) as I. apply (inv_owner _ _ _ I) in H1. apply (inv_owner _ _ _ I) in H2. congruence.
Qed.
Lemma completes cm order : forall n k s, runs cm (length order) k (start order) s -> measure s <= n ->
  exists k' s', runs cm (length order) k' (start order) s' /\ (finished s' \/ step cm (length order) s' Crash).
Proof.
  induction n as [|n IH]; intros k s R M; destruct (progress cm order s (Inv_runs _ _ _ _ R)) as [F|[[s'|] ST]]; try (exists k, s; auto; fail).
  - apply measure_step in ST. lia.
  - assert (R' := runsS _ _ _ _ _ _ R ST). apply measure_step in ST. apply (IH (S k) s' R'). lia.
Qed.
Lemma concat_in {A} (x : A) (a b : list (list A)) l : In x l -> In x (concat (a ++ l :: b)).
Proof. intros H. rewrite concat_app. cbn [concat]. rewrite !in_app_iff. auto. Qed.
Lemma crash_bad cm q : crashes cm q <-> exists g, In g (splitWord (SubstringSizes cm) q) /\ bad cm g.
Proof.
  split.
  - intros [order [k [s [P [R ST]]]]]. pose proof (Inv_runs _ _ _ _ R) as I. inversion ST as [| | | | | | | |i g H1 H2 H3 E|]; subst. exists g. split; [|apply work_panic; exact H3].
    destruct (inv_grams _ _ _ I) as [wl [gs [seen [P2 [Fw _]]]]].
    destruct (pend_change cm _ _ i (Locked g) Ended [] Fw H1 (p_ended cm)) as [a [p [b [-> [W _]]]]]. inversion W; subst.
    apply (Permutation_in _ P), (Permutation_in _ (Permutation_sym P2)). rewrite !in_app_iff. right; right; left. apply concat_in. left. reflexivity.
  - intros [g [I B]]. set (order := splitWord (SubstringSizes cm) q) in *.
    destruct (completes cm order _ 0 (start order) (runs0 _ _ _) (le_n _)) as [k [s [R [[F _]|ST]]]]; [|exists order, k, s; split; [apply Permutation_refl|auto]].
    exfalso. assert (M : match_ cm q (acc s)) by (exists s; split; [exists order, k; split; [apply Permutation_refl|exact R]|auto]).
    apply match_total in M. destruct M as [_ [_ M]]. rewrite Forall_forall in M. exact (M g I B).
Qed.
(** match returns, unless it crashes: then no schedule makes it return. *)
Theorem C26_returns_or_crashes cm q : (exists m, match_ cm q m) <-> ~ crashes cm q.
Proof.
  split.
  - intros [m M] C. apply crash_bad in C. destruct C as [g [I B]]. apply match_total in M. destruct M as [_ [_ M]]. rewrite Forall_forall in M. exact (M g I B).
  - intros NC. set (order := splitWord (SubstringSizes cm) q).
    destruct (completes cm order _ 0 (start order) (runs0 _ _ _) (le_n _)) as [k [s [R [[F _]|ST]]]].
    + exists (acc s), s. split; [exists order, k; split; [apply Permutation_refl|exact R]|auto].
    + exfalso. apply NC. exists order, k, s. split; [apply Permutation_refl|auto].
Qed.
Lemma blank_nil : blank [] = true. Proof. reflexivity. Qed.
Lemma gram_nil sizes w : gram sizes w [] <-> w = [].
Proof.
  split.
  - intros [[B _]|[_ E]]; [rewrite blank_nil in B; discriminate|auto].
  - intros ->. right. split; [|reflexivity]. intros p [B [_ [a [b E]]]]. symmetry in E. apply app_eq_nil in E. destruct E as [_ E]. apply app_eq_nil in E. destruct E as [-> _]. rewrite blank_nil in B. discriminate.
Qed.
Lemma gram_of_nil sizes g : gram sizes [] g -> g = [].
Proof.
  intros [[B [_ [a [b E]]]]|[_ E]]; [|auto]. symmetry in E. apply app_eq_nil in E. destruct E as [_ E]. apply app_eq_nil in E. tauto.
Qed.
(** The one crash: an empty query over a list with an empty word (division by zero). *)
Theorem C26_crashes_iff lower ws sizes cm q : lower [] = [] -> New lower ws sizes cm -> fits ws -> (crashes cm q <-> q = [] /\ In [] ws).
Proof.
  intros L A F. rewrite crash_bad. rewrite (Adds_sizes _ _ _ _ _ A). cbn [SubstringSizes]. split.
  - intros [g [I B]]. apply (New_bad _ _ ws cm g A F) in B. destruct B as [B H]. split; [|exact B].
    apply hasb_decides in H. rewrite L in H. apply gram_of_nil in H. subst g. apply splitWord_gram, gram_nil in I. exact I.
  - intros [-> I]. exists []. split; [apply splitWord_gram; apply gram_nil; reflexivity|]. apply (New_bad _ _ ws cm [] A F). split; [exact I|].
    apply hasb_decides. apply gram_nil. exact L.
Qed.

(** ** C28 *)
Definition scoref (lower : str -> str) (sizes : list nat) (ws : list str) (q k : str) : nat :=
  list_sum (map (fun g => if hasb lower sizes k g then
          count_occ str_dec ws k * (1 + 1000 / length k + 1000 / length (filter (fun w => hasb lower sizes w g) ws)) else 0) (splitWord sizes q)).
Lemma is_score_iff lower sizes ws q k v : is_score lower sizes ws q k v <-> v = scoref lower sizes ws q k.
Proof.
  split.
  - intros [gs [has [[N G] [D ->]]]].
    assert (E : forall w g, has w g = hasb lower sizes w g).
    { intros w g. pose proof (D w g) as H1. pose proof (hasb_decides lower sizes w g) as H2. destruct (has w g), (hasb lower sizes w g); try reflexivity; exfalso; [assert (false = true) by tauto; discriminate|assert (false = true) by tauto; discriminate]. }
    assert (P : Permutation gs (splitWord sizes q)) by (apply NoDup_Permutation; [exact N|apply splitWord_NoDup|]; intros g; rewrite G, splitWord_gram; tauto).
    unfold scoref. rewrite (sum_perm (fun g => if has k g then _ else 0) _ _ P : list_sum _ = list_sum _). f_equal. apply map_ext. intros g. rewrite E.
    destruct (hasb lower sizes k g); [|reflexivity]. do 2 f_equal. f_equal. apply f_equal. apply filter_ext. intros w. apply E.
  - intros ->. exists (splitWord sizes q), (hasb lower sizes). split; [apply splitWord_lists|]. split; [apply hasb_decides|reflexivity].
Qed.
Lemma total_scoref lower ws sizes cm q k : New lower ws sizes cm -> fits ws -> total cm q k = scoref lower sizes ws q k.
Proof.
  intros A F. unfold total, scoref. rewrite (Adds_sizes _ _ _ _ _ A). cbn [SubstringSizes]. apply sum_ext. intros g _. apply (New_contrib lower sizes ws cm g k A F).
Qed.
Lemma sum_pos {A} (f : A -> nat) l : 0 < sum f l <-> exists g, In g l /\ 0 < f g.
Proof.
  induction l as [|a l IH]; [split; [intros H; inversion H|intros [g [[] _]]]|]. rewrite sum_cons. split.
  - intros H. destruct (f a) as [|n] eqn:E; [|exists a; split; [left; reflexivity|lia]]. destruct IH as [IH _]. destruct IH as [g [I X]]; [lia|]. exists g. split; [right; exact I|exact X].
  - intros [g [[->|I] X]]; [lia|]. assert (0 < sum f l) by (apply IH; exists g; auto). lia.
Qed.
Lemma scoref_pos lower ws sizes q k : 0 < scoref lower sizes ws q k <-> In k ws /\ shares lower sizes q k.
Proof.
  unfold scoref. match goal with |- context [list_sum (map ?f ?l)] => change (list_sum (map f l)) with (sum f l) end.
  rewrite sum_pos, (count_occ_In str_dec). unfold shares. generalize (1000 / length k). intros c0. split.
  - intros [g [I X]]. destruct (hasb lower sizes k g) eqn:E; [|inversion X]. split; [destruct (count_occ str_dec ws k); [inversion X|lia]|].
    exists g. split; [apply splitWord_gram; exact I|]. apply hasb_decides. exact E.
  - intros [C [g [G1 G2]]]. exists g. split; [apply splitWord_gram; exact G1|]. apply hasb_decides in G2. rewrite G2. apply Nat.mul_pos_pos; [exact C|]. apply Nat.lt_0_succ.
Qed.
(** The map match returns holds exactly the words of the list sharing a substring with the query, each with its score. *)
Theorem C28_match_scores lower ws sizes cm q m : New lower ws sizes cm -> fits ws -> match_ cm q m ->
  NoDup (map fst m) /\ forall k v, In (k, v) m <-> In k ws /\ shares lower sizes q k /\ is_score lower sizes ws q k v.
Proof.
  intros A F M. apply match_total in M. destruct M as [P [V _]]. split; [apply P|]. intros k v. rewrite (posmap_in m k v P), V, (total_scoref lower ws sizes cm q k A F), is_score_iff.
  pose proof (scoref_pos lower ws sizes q k) as SP. split; [intros [<- H]; apply SP in H; tauto|]. intros [H1 [H2 ->]]. split; [reflexivity|apply SP; auto].
Qed.
(** The score exists and is unique, so the theorem above pins every value. *)
Theorem C28_score_unique lower ws sizes q k : exists! v, is_score lower sizes ws q k v.
Proof. exists (scoref lower sizes ws q k). split; [apply is_score_iff; reflexivity|]. intros v H. apply is_score_iff in H. auto. Qed.
(** The result does not depend on the iteration orders New went through either. *)
Theorem C26_index_order_irrelevant lower ws sizes cm1 cm2 q m1 m2 : New lower ws sizes cm1 -> New lower ws sizes cm2 -> fits ws ->
  match_ cm1 q m1 -> match_ cm2 q m2 -> Permutation m1 m2.
Proof.
  intros A1 A2 F H1 H2. apply match_total in H1. apply match_total in H2. destruct H1 as [P1 [V1 _]], H2 as [P2 [V2 _]].
  apply same_map; [exact P1|exact P2|]. intros k. rewrite V1, V2, (total_scoref lower ws sizes cm1 q k A1 F), (total_scoref lower ws sizes cm2 q k A2 F). reflexivity.
Qed.

(** ** C27 *)
Lemma descending_le l : descending l -> forall i j a b, i < j -> nth_error l i = Some a -> nth_error l j = Some b -> snd b <= snd a.
Proof.
  induction l as [|x l IH]; intros D i j a b L Ha Hb; [destruct i; discriminate|].
  assert (D' : descending l) by (destruct l; [exact I|apply D]).
  destruct j as [|j]; [lia|]. cbn in Hb. destruct i as [|i]; cbn in Ha; [|apply (IH D' i j); try assumption; lia].
  injection Ha as ->. destruct l as [|y l]; [destruct j; discriminate|]. destruct D as [D1 _]. destruct j as [|j]; [cbn in Hb; injection Hb as ->; exact D1|].
  pose proof (IH D' 0 (S j) y b ltac:(lia) eq_refl Hb). lia.
Qed.
Lemma ranked lower ws sizes cm q m pl : New lower ws sizes cm -> fits ws -> match_ cm q m -> rankByWordCount m pl ->
  NoDup (map fst pl) /\ descending pl /\ forall k v, In (k, v) pl <-> In k ws /\ shares lower sizes q k /\ v = scoref lower sizes ws q k.
Proof.
  intros A F M [P D]. destruct (C28_match_scores lower ws sizes cm q m A F M) as [N H]. split; [|split; [exact D|]].
  - apply (Permutation_NoDup (Permutation_map fst (Permutation_sym P)) N).
  - intros k v. rewrite <- (is_score_iff lower sizes ws q k v), <- H. split; apply Permutation_in; [exact P|exact (Permutation_sym P)].
Qed.
Lemma NoDup_app_l {A} (l t : list A) : NoDup (l ++ t) -> NoDup l.
Proof. induction l as [|a l IH]; intros N; [constructor|]. inversion N as [|? ? N1 N2]; subst. constructor; [intros I; apply N1; apply in_or_app; auto|apply IH; exact N2]. Qed.
Lemma firstn_In {A} n (l : list A) x : In x (firstn n l) -> In x l.
Proof. intros H. rewrite <- (firstn_skipn n l). apply in_or_app. auto. Qed.
(** ClosestN: at most n distinct entries, all from the list and all sharing a substring with the query, best first; an entry
    that shares a substring is left out only when n better ones (or ties) are returned. *)
Theorem C27_ClosestN lower ws sizes cm q n res : New lower ws sizes cm -> fits ws -> ClosestN cm q n res ->
  NoDup res /\ length res <= n
  /\ (forall k, In k res -> In k ws /\ shares lower sizes q k)
  /\ (forall i j k k' v v', i < j -> nth_error res i = Some k -> nth_error res j = Some k' ->
        is_score lower sizes ws q k v -> is_score lower sizes ws q k' v' -> v' <= v)
  /\ (forall k v, In k ws -> shares lower sizes q k -> ~ In k res -> is_score lower sizes ws q k v ->
        length res = n /\ forall k' v', In k' res -> is_score lower sizes ws q k' v' -> v <= v').
Proof.
  intros A F [m [pl [M [R ->]]]]. destruct (ranked _ _ _ _ _ _ _ A F M R) as [N [D H]].
  assert (Hin : forall k, In k (map fst (firstn n pl)) -> In k ws /\ shares lower sizes q k).
  { intros k I. apply in_map_iff in I. destruct I as [[k' v] [<- I]]. apply firstn_In, H in I. tauto. }
  assert (Hnth : forall l i (k : str), nth_error (map fst l) i = Some k -> exists v : nat, nth_error l i = Some (k, v)).
  { intros l i k E. rewrite nth_error_map in E. destruct (nth_error l i) as [[a b]|]; [|discriminate]. injection E as <-. exists b. reflexivity. }
  repeat apply conj.
  - rewrite <- firstn_map. rewrite <- (firstn_skipn n (map fst pl)) in N. exact (NoDup_app_l _ _ N).
  - rewrite map_length, firstn_length. lia.
  - exact Hin.
  - intros i j k k' v v' L E1 E2 S1 S2. rewrite is_score_iff in S1, S2. apply Hnth in E1. apply Hnth in E2. destruct E1 as [x E1], E2 as [y E2].
    assert (B : forall i z, nth_error (firstn n pl) i = Some z -> nth_error pl i = Some z).
    { intros i0 z E. rewrite <- (firstn_skipn n pl). rewrite nth_error_app1; [exact E|]. apply nth_error_Some. congruence. }
    apply B in E1. apply B in E2. pose proof (descending_le pl D i j _ _ L E1 E2) as Le. apply nth_error_In, H in E1. apply nth_error_In, H in E2. cbn [snd] in Le. destruct E1 as [_ [_ ->]], E2 as [_ [_ ->]]. lia.
  - intros k v I SH NI S1. rewrite is_score_iff in S1. assert (P : In (k, v) pl) by (apply H; auto).
    rewrite <- (firstn_skipn n pl) in P. apply in_app_or in P. destruct P as [P|P]; [exfalso; apply NI; change k with (fst (k, v)); apply in_map; exact P|].
    assert (Ln : n < length pl). { destruct (le_lt_dec (length pl) n) as [L|L]; [|exact L]. rewrite skipn_all2 in P by exact L. contradiction. }
    split; [rewrite map_length, firstn_length; lia|]. intros k' v' I' S2. rewrite is_score_iff in S2. apply in_map_iff in I'. destruct I' as [[k'' v''] [E I']]. cbn [fst] in E. subst k''.
    assert (I2 := I'). apply firstn_In, H in I2. destruct I2 as [_ [_ ->]]. apply In_nth_error in I'. destruct I' as [i I']. apply In_nth_error in P. destruct P as [j P].
    assert (Li : i < n). { assert (i < length (firstn n pl)) by (apply nth_error_Some; congruence). rewrite firstn_length in H0. lia. }
    assert (E1 : nth_error pl i = Some (k', scoref lower sizes ws q k')).
    { rewrite <- (firstn_skipn n pl). rewrite nth_error_app1; [exact I'|]. apply nth_error_Some. congruence. }
    assert (E2 : nth_error pl (n + j) = Some (k, v)).
    { rewrite <- (firstn_skipn n pl). rewrite nth_error_app2; rewrite firstn_length, Nat.min_l by lia; [|lia]. replace (n + j - n) with j by lia. exact P. }
    pose proof (descending_le pl D i (n + j) _ _ ltac:(lia) E1 E2) as Le. cbn [snd] in Le. lia.
Qed.
(** Closest is the first of ClosestN, or the empty string. *)
Theorem C27_Closest_first cm q res : Closest cm q res <-> exists l, ClosestN cm q 1 l /\ res = match l with [] => [] | k :: _ => k end.
Proof.
  split.
  - intros [m [pl [M [R ->]]]]. exists (map fst (firstn 1 pl)). split; [exists m, pl; auto|]. destruct pl as [|[k v] pl]; reflexivity.
  - intros [l [[m [pl [M [R ->]]]] ->]]. exists m, pl. split; [exact M|]. split; [exact R|]. destruct pl as [|[k v] pl]; reflexivity.
Qed.
(** Closest returns a word of maximal score among the words of the list, or the empty string if no word shares a substring with the query. *)
Theorem C27_Closest_best lower ws sizes cm q res : New lower ws sizes cm -> fits ws -> Closest cm q res ->
  (In res ws /\ shares lower sizes q res /\ forall k v v', In k ws -> is_score lower sizes ws q k v -> is_score lower sizes ws q res v' -> v <= v')
  \/ (res = [] /\ forall k, In k ws -> ~ shares lower sizes q k).
Proof.
  intros A F [m [pl [M [R ->]]]]. destruct (ranked _ _ _ _ _ _ _ A F M R) as [N [D H]]. destruct pl as [|[r w] pl].
  - right. split; [reflexivity|]. intros k I SH. apply (H k (scoref lower sizes ws q k)). auto.
  - left. assert (Hr : In r ws /\ shares lower sizes q r /\ w = scoref lower sizes ws q r) by (apply H; left; reflexivity). split; [tauto|]. split; [tauto|].
    intros k v v' I S1 S2. rewrite is_score_iff in S1, S2. destruct Hr as [_ [_ Ew]]. rewrite <- Ew in S2. subst v'.
    destruct (Nat.eq_dec v 0) as [->|Nz]; [lia|]. assert (Hs : shares lower sizes q k) by (apply (scoref_pos lower ws sizes q k); lia).
    assert (P : In (k, v) ((r, w) :: pl)) by (apply H; auto). destruct P as [P|P]; [injection P as -> ->; lia|]. apply In_nth_error in P. destruct P as [j P].
    pose proof (descending_le _ D 0 (S j) (r, w) (k, v) ltac:(lia) eq_refl P) as Le. exact Le.
Qed.
(** Such results exist: every query that does not crash gets an answer for every n. *)
Theorem C27_answers cm q n : ~ crashes cm q -> exists res, ClosestN cm q n res.
Proof.
  intros NC. apply C26_returns_or_crashes in NC. destruct NC as [m M].
  assert (X : exists pl, rankByWordCount m pl).
  { clear M. induction m as [|e m [pl [P D]]]; [exists []; split; [constructor|exact I]|].
    assert (Y : exists pl', Permutation pl' (e :: pl) /\ descending pl').
    { clear P m. induction pl as [|f pl IH]; [exists [e]; split; [constructor; constructor|exact I]|].
      assert (D' : descending pl) by (destruct pl; [exact I|apply D]). destruct (le_lt_dec (snd f) (snd e)) as [L|L].
      - exists (e :: f :: pl). split; [apply Permutation_refl|]. split; assumption.
      - destruct (IH D') as [pl' [P' D2]]. exists (f :: pl'). split; [rewrite P'; apply perm_swap|]. destruct pl' as [|h t]; [exact I|]. split; [|exact D2].
        assert (In h (e :: pl)) as [<-|Ih] by (apply (Permutation_in _ P'); left; reflexivity); [lia|]. apply In_nth_error in Ih. destruct Ih as [j J].
        exact (descending_le (f :: pl) D 0 (S j) f h ltac:(lia) eq_refl J). }
    destruct Y as [pl' [P' D']]. exists pl'. split; [rewrite P'; constructor; exact P|exact D']. }
  destruct X as [pl R]. exists (map fst (firstn n pl)), m, pl. auto.
Qed.

(** ** C29 *)
Lemma New_exists lower ws sizes : exists cm, New lower ws sizes cm.
Proof.
  unfold New. generalize 0. generalize ({| SubstringSizes := sizes; SubstringToID := []; ID := [] |}). induction ws as [|w ws IH]; intros cm i; [exists cm; constructor|].
  destruct (IH (add_word cm i w (splitWord (SubstringSizes cm) (lower w))) (S i)) as [cm' A]. exists cm'. econstructor; [apply Permutation_refl|exact A].
Qed.
Lemma gram_exists sizes w : exists g, In g (splitWord sizes w).
Proof. unfold splitWord. destruct (nodup str_dec _) as [|a l]; eexists; left; reflexivity. Qed.
Lemma shares_self lower sizes e : lower e = e -> shares lower sizes e e.
Proof. intros L. destruct (gram_exists sizes e) as [g I]. apply splitWord_gram in I. exists g. rewrite L. auto. Qed.
(** A lower-case entry typed exactly is always among the answers, if enough are asked for. *)
Theorem C29_exact_entry_among_answers lower ws sizes cm e n res : New lower ws sizes cm -> fits ws -> In e ws -> lower e = e ->
  length ws <= n -> ClosestN cm e n res -> In e res.
Proof.
  intros A F I L Ln C. destruct (C27_ClosestN lower ws sizes cm e n res A F C) as [N [_ [H1 [_ H2]]]].
  destruct (in_dec str_dec e res) as [Y|Y]; [exact Y|exfalso].
  destruct (H2 e (scoref lower sizes ws e e) I (shares_self lower sizes e L) Y ltac:(apply is_score_iff; reflexivity)) as [E _].
  assert (X : length (e :: res) <= length ws); [|cbn in X; lia]. apply NoDup_incl_length; [constructor; assumption|]. intros k [<-|K]; [exact I|apply H1; exact K].
Qed.
Lemma sum_le_eq {A} (f h : A -> nat) l : (forall g, In g l -> f g <= h g) -> sum h l <= sum f l -> forall g, In g l -> f g = h g.
Proof.
  induction l as [|a l IH]; intros H S1 g I; [contradiction|]. rewrite !sum_cons in S1. pose proof (H a ltac:(left; reflexivity)) as Ha.
  assert (Hl : sum f l <= sum h l).
  { assert (G : forall g, In g l -> f g <= h g) by (intros x X; apply H; right; exact X). clear -G. induction l as [|b l IH]; [constructor|]. rewrite !sum_cons. pose proof (G b ltac:(left; reflexivity)). assert (sum f l <= sum h l) by (apply IH; intros x X; apply G; right; exact X). lia. }
  destruct I as [->|I]; [lia|]. apply IH; [intros x X; apply H; right; exact X|lia|exact I].
Qed.
Lemma count_one ws (k : str) : NoDup ws -> In k ws -> count_occ str_dec ws k = 1.
Proof. intros N I. apply (NoDup_count_occ' str_dec); assumption. Qed.
(** A word of maximal score for the lower-case entry typed exactly, other than it, is shorter than it, or has all its substrings and ties with it. *)
Lemma best_loses_only_to lower ws sizes e res : NoDup ws -> In e ws -> lower e = e -> e <> [] -> In res ws ->
  (forall k v v', In k ws -> is_score lower sizes ws e k v -> is_score lower sizes ws e res v' -> v <= v') ->
  res = e \/ length res < length e \/ (1000 / length res = 1000 / length e /\ forall g, gram sizes e g -> gram sizes (lower res) g).
Proof.
  intros ND I L NE Ir B.
  destruct (le_lt_dec (length e) (length res)) as [Le|Lt]; [|tauto]. right; right.
  pose proof (B e _ _ I (proj2 (is_score_iff lower sizes ws e e _) eq_refl) (proj2 (is_score_iff lower sizes ws e res _) eq_refl)) as S1. unfold scoref in S1. revert S1. generalize 1000. intros T S1.
  assert (Q : T / length res <= T / length e) by (apply Nat.div_le_compat_l; destruct e; [contradiction|cbn in *; lia]).
  set (qe := T / length e) in *. set (qr := T / length res) in *.
  assert (K := sum_le_eq (fun g => if hasb lower sizes res g then count_occ str_dec ws res * (1 + qr + T / length (filter (fun w => hasb lower sizes w g) ws)) else 0)
                         (fun g => if hasb lower sizes e g then count_occ str_dec ws e * (1 + qe + T / length (filter (fun w => hasb lower sizes w g) ws)) else 0) (splitWord sizes e)).
  rewrite (count_one ws e ND I), (count_one ws res ND Ir) in *.
  assert (He : forall g, In g (splitWord sizes e) -> hasb lower sizes e g = true) by (intros g G; apply hasb_decides; rewrite L; apply splitWord_gram; exact G).
  assert (K2 : forall g, In g (splitWord sizes e) -> hasb lower sizes res g = true /\ qr = qe).
  { intros g G. specialize (fun H => K H S1 g G). cbn beta in K. rewrite (He g G) in K.
    assert (X : (if hasb lower sizes res g then 1 * (1 + qr + T / length (filter (fun w => hasb lower sizes w g) ws)) else 0) = 1 * (1 + qe + T / length (filter (fun w => hasb lower sizes w g) ws))).
    { apply K. intros g' G'. rewrite (He g' G'). generalize (T / length (filter (fun w => hasb lower sizes w g') ws)). intros c. destruct (hasb lower sizes res g'); lia. }
    clear K S1. revert X. generalize (T / length (filter (fun w => hasb lower sizes w g) ws)). intros c. destruct (hasb lower sizes res g); [|lia]. split; [reflexivity|lia]. }
  split; [destruct (gram_exists sizes e) as [g G]; apply (K2 g G)|]. intros g G. apply splitWord_gram in G. apply hasb_decides. apply K2. exact G.
Qed.
(** In a list without duplicates, an answer other than the lower-case entry typed exactly is shorter than it, or has all its
    substrings and ties with it. *)
Theorem C29_exact_entry_loses_only_to lower ws sizes cm e res : New lower ws sizes cm -> fits ws -> NoDup ws -> In e ws -> lower e = e -> e <> [] ->
  Closest cm e res -> res = e \/ length res < length e \/ (1000 / length res = 1000 / length e /\ forall g, gram sizes e g -> gram sizes (lower res) g).
Proof.
  intros A F ND I L NE C. destruct (C27_Closest_best lower ws sizes cm e res A F C) as [[Ir [_ B]]|[_ B]]; [exact (best_loses_only_to lower ws sizes e res ND I L NE Ir B)|].
  exfalso. exact (B e I (shares_self lower sizes e L)).
Qed.
(** So it is returned whenever no other entry is shorter and none has all its substrings. *)
Theorem C29_exact_entry_first_when lower ws sizes cm e res : New lower ws sizes cm -> fits ws -> NoDup ws -> In e ws -> lower e = e -> e <> [] ->
  (forall k, In k ws -> k <> e -> length e <= length k /\ exists g, gram sizes e g /\ ~ gram sizes (lower k) g) -> Closest cm e res -> res = e.
Proof.
  intros A F ND I L NE H C. destruct (str_dec res e) as [E|E]; [exact E|exfalso].
  assert (Ir : In res ws). { destruct (C27_Closest_best lower ws sizes cm e res A F C) as [[Ir _]|[_ B]]; [exact Ir|]. exfalso. exact (B e I (shares_self lower sizes e L)). }
  destruct (H res Ir E) as [Le [g [G1 G2]]]. destruct (C29_exact_entry_loses_only_to lower ws sizes cm e res A F ND I L NE C) as [K|[K|[_ K]]]; [contradiction|lia|]. apply G2. apply K. exact G1.
Qed.
(** An entry is not of maximal score for its own name when a sufficiently shorter entry has all its substrings. *)
Lemma best_shadowed lower ws sizes e k : NoDup ws -> In e ws -> In k ws -> lower e = e ->
  (forall g, gram sizes e g -> gram sizes (lower k) g) -> 1000 / length e < 1000 / length k ->
  ~ forall v v', is_score lower sizes ws e k v -> is_score lower sizes ws e e v' -> v <= v'.
Proof.
  intros ND I Ik L G Q B.
  pose proof (B _ _ (proj2 (is_score_iff lower sizes ws e k _) eq_refl) (proj2 (is_score_iff lower sizes ws e e _) eq_refl)) as S1. unfold scoref in S1. revert Q S1. generalize 1000. intros T Q S1.
  set (qe := T / length e) in *. set (qk := T / length k) in *. rewrite (count_one ws e ND I), (count_one ws k ND Ik) in S1.
  assert (He : forall g, In g (splitWord sizes e) -> hasb lower sizes e g = true) by (intros g X; apply hasb_decides; rewrite L; apply splitWord_gram; exact X).
  assert (Hk : forall g, In g (splitWord sizes e) -> hasb lower sizes k g = true) by (intros g X; apply hasb_decides; apply G; apply splitWord_gram; exact X).
  assert (K := sum_le_eq (fun g => if hasb lower sizes e g then 1 * (1 + qe + T / length (filter (fun w => hasb lower sizes w g) ws)) else 0)
                         (fun g => if hasb lower sizes k g then 1 * (1 + qk + T / length (filter (fun w => hasb lower sizes w g) ws)) else 0) (splitWord sizes e)).
  destruct (gram_exists sizes e) as [g X]. assert (Y := fun H => K H S1 g X). cbn beta in Y. rewrite (He g X), (Hk g X) in Y.
  assert (Z : 1 * (1 + qe + T / length (filter (fun w => hasb lower sizes w g) ws)) = 1 * (1 + qk + T / length (filter (fun w => hasb lower sizes w g) ws))).
  { apply Y. intros g' X'. rewrite (He g' X'), (Hk g' X'). generalize (T / length (filter (fun w => hasb lower sizes w g') ws)). intros c. lia. }
  revert Z. clear S1 K Y. generalize (T / length (filter (fun w => hasb lower sizes w g) ws)). intros c. lia.
Qed.
(** An entry is never returned for its own name when a sufficiently shorter entry has all its substrings. *)
Theorem C29_shadowed_entry lower ws sizes cm e k : New lower ws sizes cm -> fits ws -> NoDup ws -> In e ws -> In k ws -> lower e = e ->
  (forall g, gram sizes e g -> gram sizes (lower k) g) -> 1000 / length e < 1000 / length k -> ~ Closest cm e e.
Proof.
  intros A F ND I Ik L G Q C. destruct (C27_Closest_best lower ws sizes cm e e A F C) as [[_ [_ B]]|[_ B]].
  2:{ exact (B e I (shares_self lower sizes e L)). }
  exact (best_shadowed lower ws sizes e k ND I Ik L G Q (fun v v' => B k v v' Ik)).
Qed.
(** Queries are not lowered: a query whose every substring has an upper-case letter finds nothing, in any list. *)
Theorem C29_upper_case_finds_nothing lower ws sizes cm q n res : New lower ws sizes cm -> fits ws ->
  (forall w b, In b (lower w) -> ~ (65 <= b <= 90)%Z) ->
  (forall g, gram sizes q g -> exists b, In b g /\ (65 <= b <= 90)%Z) -> ClosestN cm q n res -> res = [].
Proof.
  intros A F L U C. destruct (C27_ClosestN lower ws sizes cm q n res A F C) as [_ [_ [H _]]]. destruct res as [|k res]; [reflexivity|exfalso].
  destruct (H k ltac:(left; reflexivity)) as [_ [g [G1 G2]]]. destruct (U g G1) as [b [I B]]. apply (L k b); [|exact B].
  destruct G2 as [[_ [_ [x [y ->]]]]|[_ ->]]; [rewrite !in_app_iff; auto|exact I].
Qed.
Lemma ascii_lower_no_upper w b : In b (ascii_lower w) -> ~ (65 <= b <= 90)%Z.
Proof.
  unfold ascii_lower. rewrite in_map_iff. intros [c [<- _]]. unfold lower1. destruct (Z.leb_spec 65 c); destruct (Z.leb_spec c 90); cbn [andb]; lia.
Qed.
Definition store1 : list str := [lit "sites/abab"; lit "sites/aba"].
(** The claim fails: the first of these two entries cannot be reached by its exact name. *)
Theorem C29_exact_entry_first_refuted : exists ws e, NoDup ws /\ In e ws /\ ascii_lower e = e /\
  (exists cm res, New ascii_lower ws [2] cm /\ Closest cm e res) /\
  forall cm res, New ascii_lower ws [2] cm -> Closest cm e res -> res <> e.
Proof.
  exists store1, (lit "sites/abab"). split; [repeat constructor; cbn; intuition discriminate|]. split; [left; reflexivity|]. split; [reflexivity|]. split.
  - destruct (New_exists ascii_lower store1 [2]) as [cm A]. exists cm. destruct (C27_answers cm (lit "sites/abab") 1) as [l H].
    + rewrite (C26_crashes_iff ascii_lower store1 [2] cm); [intros [E _]; discriminate|reflexivity|exact A|vm_compute; discriminate].
    + exists (match l with [] => [] | k :: _ => k end). split; [exact A|]. apply C27_Closest_first. exists l. auto.
  - intros cm res A C ->. revert C. apply (C29_shadowed_entry ascii_lower store1 [2] cm (lit "sites/abab") (lit "sites/aba") A).
    + vm_compute. discriminate.
    + repeat constructor; cbn; intuition discriminate.
    + left. reflexivity.
    + right. left. reflexivity.
    + reflexivity.
    + intros g G. apply splitWord_gram in G. apply splitWord_gram. revert G. vm_compute. tauto.
    + vm_compute. lia.
Qed.

(** ** C30 *)
Section C30.
  Variable lower : str -> str.
  Variables (ws vs : list str) (sizes : list nat) (cm cm' : CM).
  Hypotheses (A : New lower ws sizes cm) (B : Add lower cm vs cm') (Fw : fits ws) (Fv : fits vs).
  Lemma add_sizes : SubstringSizes cm' = sizes.
  Proof. rewrite (Adds_sizes _ _ _ _ _ B). rewrite (Adds_sizes _ _ _ _ _ A). reflexivity. Qed.
  Lemma add_ids g x : In x (subids (SubstringToID cm') g) <->
    exists j w, (nth_error ws j = Some w \/ nth_error vs j = Some w) /\ x = uint32 j /\ gram sizes (lower w) g.
  Proof.
    rewrite (Adds_in _ _ _ _ _ B), (Adds_in _ _ _ _ _ A). rewrite (Adds_sizes _ _ _ _ _ A). cbn [SubstringToID SubstringSizes Nat.add]. unfold subids. cbn [get In]. split.
    - intros [[[]|[j [w [H1 [H2 H3]]]]]|[j [w [H1 [H2 H3]]]]]; exists j, w; rewrite <- splitWord_gram; auto.
    - intros [j [w [[H1|H1] [H2 H3]]]]; rewrite <- splitWord_gram in H3; [left; right|right]; exists j, w; auto.
  Qed.
  Lemma add_key_new j w : nth_error vs j = Some w -> key_of cm' (uint32 j) = w.
  Proof. exact (Adds_key _ _ _ _ _ B Fv j w). Qed.
  Lemma add_key_old j w : nth_error ws j = Some w -> length vs <= j -> key_of cm' (uint32 j) = w.
  Proof.
    intros H L. rewrite (Adds_key_old _ _ _ _ _ _ B); [exact (Adds_key _ _ _ _ _ A Fw j w H)|]. intros i Li E. apply nth_seq in H. unfold fits in *. cbn [Nat.add] in E. apply uint32_inj in E; lia.
  Qed.
  Lemma contrib_pos g k : 0 < contrib cm' g k <-> exists x, In x (subids (SubstringToID cm') g) /\ key_of cm' x = k.
  Proof.
    rewrite contrib_sub. rewrite sum_pos. unfold term. generalize (1000 / length k) (1000 / length (subids (SubstringToID cm') g)). intros a b. split.
    - intros [x [I H]]. destruct (str_dec k (key_of cm' x)) as [E|]; [|inversion H]. exists x. auto.
    - intros [x [I <-]]. exists x. split; [exact I|]. destruct str_dec; [lia|contradiction].
  Qed.
  (** The words that can be found after Add are the new ones and those old ones whose position lies beyond the new list. *)
  Theorem C30_findable q m k v : match_ cm' q m -> In (k, v) m -> In k vs \/ exists j, length vs <= j /\ nth_error ws j = Some k.
  Proof.
    intros M I. apply match_total in M. destruct M as [P [V _]]. apply (posmap_in m k v P) in I. destruct I as [E Hv]. rewrite V in E. rewrite <- E in Hv.
    unfold total in Hv. apply sum_pos in Hv. destruct Hv as [g [_ H]]. apply contrib_pos in H. destruct H as [x [I K]]. apply add_ids in I. destruct I as [j [w [H1 [-> _]]]].
    destruct (nth_error vs j) as [w'|] eqn:Ej; [rewrite (add_key_new j w' Ej) in K; subst k; left; exact (nth_error_In _ _ Ej)|].
    apply nth_error_None in Ej. right. exists j. split; [exact Ej|]. destruct H1 as [H1|H1]; [|discriminate]. rewrite (add_key_old j w H1 Ej) in K. congruence.
  Qed.
  (** What is found, exactly: the word now numbered j is returned iff the query shares a substring with it or with the word formerly numbered j. *)
  Theorem C30_found_iff q m k : match_ cm' q m -> ((exists v, In (k, v) m) <->
    exists j w, (nth_error vs j = Some k \/ (length vs <= j /\ nth_error ws j = Some k)) /\ (nth_error ws j = Some w \/ nth_error vs j = Some w) /\ shares lower sizes q w).
  Proof.
    intros M. apply match_total in M. destruct M as [P [V _]].
    assert (Q : (exists v, In (k, v) m) <-> 0 < total cm' q k).
    { split; [intros [v I]; apply (posmap_in m k v P) in I; rewrite <- V; lia|]. intros H. exists (total cm' q k). apply (posmap_in m); [exact P|]. rewrite V. auto. }
    rewrite Q. unfold total. rewrite sum_pos, add_sizes. split.
    - intros [g [G H]]. apply splitWord_gram in G. apply contrib_pos in H. destruct H as [x [I K]]. apply add_ids in I. destruct I as [j [w [H1 [-> H3]]]]. exists j, w.
      split; [|split; [exact H1|exists g; auto]].
      destruct (nth_error vs j) as [w'|] eqn:Ej; [rewrite (add_key_new j w' Ej) in K; subst w'; auto|]. apply nth_error_None in Ej. right. split; [exact Ej|]. destruct H1 as [H1|H1]; [|discriminate]. rewrite (add_key_old j w H1 Ej) in K. congruence.
    - intros [j [w [Hk [H1 [g [G1 G2]]]]]]. exists g. split; [apply splitWord_gram; exact G1|]. apply contrib_pos. exists (uint32 j). split; [apply add_ids; exists j, w; auto|].
      destruct Hk as [Hk|[Hk1 Hk2]]; [exact (add_key_new j k Hk)|exact (add_key_old j k Hk2 Hk1)].
  Qed.
  (** The new words are found by queries sharing a substring with them. *)
  Theorem C30_new_words_found q m k : match_ cm' q m -> In k vs -> shares lower sizes q k -> exists v, In (k, v) m.
  Proof. intros M I SH. apply (C30_found_iff q m k M). apply In_nth_error in I. destruct I as [j H]. exists j, k. auto. Qed.
End C30.
(** The claim fails: adding "zebra" to the list ["apple"] loses "apple", and asking for it returns "zebra". *)
Theorem C30_refuted : exists ws vs q, In q ws /\
  (exists cm cm' res, New ascii_lower ws [2] cm /\ Add ascii_lower cm vs cm' /\ Closest cm' q res) /\
  forall cm cm' res, New ascii_lower ws [2] cm -> Add ascii_lower cm vs cm' -> Closest cm' q res -> ~ In res ws /\ In res vs /\ ~ shares ascii_lower [2] q res.
Proof.
  assert (Fw : fits [lit "apple"]) by (vm_compute; discriminate). assert (Fv : fits [lit "zebra"]) by (vm_compute; discriminate).
  exists [lit "apple"], [lit "zebra"], (lit "apple"). split; [left; reflexivity|]. split.
  - destruct (New_exists ascii_lower [lit "apple"] [2]) as [cm A].
    assert (X : exists cm', Add ascii_lower cm [lit "zebra"] cm') by (eexists; econstructor; [apply Permutation_refl|constructor]). destruct X as [cm' B]. exists cm, cm'.
    destruct (C27_answers cm' (lit "apple") 1) as [l H].
    + rewrite crash_bad. intros [g [_ [l [E Bd]]]]. assert (O : okmap (SubstringToID cm')) by (apply (Adds_ok _ _ _ _ _ B); apply (Adds_ok _ _ _ _ _ A); intros g' l' E'; discriminate).
      destruct Bd as [->|[x [I K]]]; [apply O in E; tauto|]. assert (I2 : In x (subids (SubstringToID cm') g)) by (unfold subids; rewrite E; exact I).
      apply (add_ids _ _ _ _ _ _ A B) in I2. destruct I2 as [j [w [H1 [-> _]]]]. assert (j = 0) by (destruct H1 as [H1|H1]; apply nth_seq in H1; cbn in H1; lia). subst j.
      rewrite (add_key_new _ _ _ _ B Fv 0 (lit "zebra") eq_refl) in K. discriminate.
    + exists (match l with [] => [] | k :: _ => k end). split; [exact A|]. split; [exact B|]. apply C27_Closest_first. exists l. auto.
  - intros cm cm' res A B [m [pl [M [[P _] ->]]]].
    assert (Hz : exists v, In (lit "zebra", v) m).
    { apply (C30_found_iff _ _ _ _ _ _ A B Fw Fv _ _ _ M). exists 0, (lit "apple"). split; [left; reflexivity|]. split; [left; reflexivity|]. apply shares_self. reflexivity. }
    destruct pl as [|[k v] pl]; [destruct Hz as [v I]; apply (Permutation_in _ (Permutation_sym P)) in I; contradiction|].
    assert (I : In (k, v) m) by (apply (Permutation_in _ P); left; reflexivity).
    assert (k = lit "zebra").
    { destruct (C30_findable _ _ _ _ _ _ A B Fw Fv _ _ _ _ M I) as [[E|[]]|[j [L H]]]; [auto|]. apply nth_seq in H. cbn in *. lia. }
    subst k. split; [intros [E|[]]; discriminate|]. split; [left; reflexivity|]. intros [g [G1 G2]]. apply splitWord_gram in G1. apply splitWord_gram in G2. revert G1 G2. vm_compute. intuition (subst; discriminate).
Qed.

(** ** The hypotheses are met *)
Definition store2 : list str := [lit "sites/github"; lit "sites/gitlab"; lit "bank/ABN"; lit "email/git"].
Example ex_fits : fits store2. Proof. vm_compute. discriminate. Qed.
Example ex_scores : map (scoref ascii_lower [2] store2 (lit "git")) store2 = [2 * (1 + 83 + 333); 2 * (1 + 83 + 333); 0; 2 * (1 + 111 + 333)].
Proof. vm_compute. reflexivity. Qed.
Example ex_answer : exists cm m, New ascii_lower store2 [2] cm /\ match_ cm (lit "git") m /\ (exists v, In (lit "email/git", v) m) /\ ~ exists v, In (lit "bank/ABN", v) m.
Proof.
  destruct (New_exists ascii_lower store2 [2]) as [cm A]. exists cm.
  destruct (proj2 (C26_returns_or_crashes cm (lit "git"))) as [m M].
  { rewrite (C26_crashes_iff ascii_lower store2 [2] cm); [intros [E _]; discriminate|reflexivity|exact A|exact ex_fits]. }
  exists m. split; [exact A|]. split; [exact M|]. destruct (C28_match_scores ascii_lower store2 [2] cm _ m A ex_fits M) as [_ H]. split.
  - exists (scoref ascii_lower [2] store2 (lit "git") (lit "email/git")). apply H. split; [do 3 right; left; reflexivity|]. split; [|apply is_score_iff; reflexivity].
    exists (lit "gi"). split; apply splitWord_gram; vm_compute; auto 20.
  - intros [v I]. apply H in I. destruct I as [_ [[g [G1 G2]] _]]. apply splitWord_gram in G1. apply splitWord_gram in G2. revert G1 G2. vm_compute. intuition (subst; discriminate).
Qed.
(** A crash really happens. *)
Example ex_crash : exists cm, New ascii_lower [lit "a"; []] [2] cm /\ crashes cm [].
Proof.
  destruct (New_exists ascii_lower [lit "a"; []] [2]) as [cm A]. exists cm. split; [exact A|]. apply (C26_crashes_iff ascii_lower [lit "a"; []] [2]); [reflexivity|exact A|vm_compute; discriminate|].
  split; [reflexivity|right; left; reflexivity].
Qed.
(** Two workers can hold jobs at once, so the schedules really interleave. *)
Example ex_interleave cm g h : exists s, runs cm 2 5 (start [g; h]) s /\ nth_error (workers s) 0 = Some (Locked g) /\ nth_error (workers s) 3 = Some (Got h).
Proof.
  eexists. split.
  - eapply runsS; [eapply runsS; [eapply runsS; [eapply runsS; [eapply runsS; [apply runs0|]|]|]|]|].
    + eapply s_send; [reflexivity|cbn; lia].
    + eapply s_send; [reflexivity|cbn; lia].
    + eapply (w_take _ _ _ 0); reflexivity.
    + eapply (w_take _ _ _ 3); reflexivity.
    + eapply (w_lock _ _ _ 0); reflexivity.
  - cbn. auto.
Qed.
(** The exact entry wins here. *)
Example ex_exact cm res : New ascii_lower [lit "sites/github"; lit "sites/gitlab"] [2] cm -> Closest cm (lit "sites/gitlab") res -> res = lit "sites/gitlab".
Proof.
  intros A. apply (C29_exact_entry_first_when ascii_lower [lit "sites/github"; lit "sites/gitlab"] [2] cm); [exact A|vm_compute; discriminate|repeat constructor; cbn; intuition discriminate|right; left; reflexivity|reflexivity|discriminate|].
  intros k [<-|[<-|[]]] N; [|contradiction]. split; [vm_compute; lia|]. exists (lit "ab"). split; [apply splitWord_gram; vm_compute; auto 20|]. rewrite <- splitWord_gram. vm_compute. intuition discriminate.
Qed.
(** Upper case: "GITHUB" finds nothing although "github" is there. *)
Example ex_upper cm res : New ascii_lower [lit "github"; lit "GITHUB"] [2] cm -> ClosestN cm (lit "GITHUB") 10 res -> res = [].
Proof.
  intros A. apply (C29_upper_case_finds_nothing ascii_lower [lit "github"; lit "GITHUB"] [2] cm); [exact A|vm_compute; discriminate|exact ascii_lower_no_upper|].
  intros g G. apply splitWord_gram in G. exists (hd 0%Z g). revert G. vm_compute.
  intros G. repeat (destruct G as [<-|G]; [split; [left; reflexivity|split; intros X; discriminate]|]). contradiction.
Qed.

Print Assumptions C26_schedule_independent.
Print Assumptions C26_every_schedule_ends.
Print Assumptions C26_no_deadlock.
Print Assumptions C26_mutual_exclusion.
Print Assumptions C26_returns_or_crashes.
Print Assumptions C26_crashes_iff.
Print Assumptions C26_index_order_irrelevant.
Print Assumptions C27_ClosestN.
Print Assumptions C27_Closest_first.
Print Assumptions C27_Closest_best.
Print Assumptions C27_answers.
Print Assumptions C28_match_scores.
Print Assumptions C28_score_unique.
Print Assumptions C29_exact_entry_among_answers.
Print Assumptions C29_exact_entry_loses_only_to.
Print Assumptions C29_exact_entry_first_when.
Print Assumptions C29_shadowed_entry.
Print Assumptions C29_upper_case_finds_nothing.
Print Assumptions C29_exact_entry_first_refuted.
Print Assumptions C30_findable.
Print Assumptions C30_found_iff.
Print Assumptions C30_new_words_found.
Print Assumptions C30_refuted.
