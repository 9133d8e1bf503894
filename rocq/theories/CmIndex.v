(** * The index New and Add build, and the score of a word. *)
From Coq Require Import ZArith NArith Arith List Bool Permutation Lia.
From Verif Require Import Utf8 GoStr CmModel CmSpec CmProofs.
Import ListNotations.
Open Scope nat_scope.

(** ** splitWord *)
Lemma nodup_nil {A} (dec : forall a b : A, {a = b} + {a <> b}) l : nodup dec l = [] -> l = [].
Proof. intros E. destruct l as [|a l]; [reflexivity|]. exfalso. assert (I : In a (nodup dec (a :: l))) by (apply nodup_In; left; reflexivity). rewrite E in I. exact I. Qed.
Lemma substrings_in sizes w g : In g (substrings sizes w) <-> In (length g) sizes /\ exists a b, w = a ++ g ++ b.
Proof.
  unfold substrings. rewrite in_flat_map. split.
  - intros [j [Hj H]]. apply in_map_iff in H. destruct H as [i [<- H]]. apply in_seq in H.
    assert (L : length (firstn j (skipn i w)) = j) by (rewrite firstn_length, skipn_length; lia). rewrite L. split; [exact Hj|].
    exists (firstn i w), (skipn j (skipn i w)). rewrite firstn_skipn. symmetry. apply firstn_skipn.
  - intros [Hj [a [b ->]]]. exists (length g). split; [exact Hj|]. apply in_map_iff. exists (length a). split.
    + rewrite skipn_app, skipn_all, Nat.sub_diag. cbn [skipn app]. rewrite firstn_app, firstn_all, Nat.sub_diag. cbn [firstn]. apply app_nil_r.
    + apply in_seq. rewrite !app_length. lia.
Qed.
Lemma pieces_in sizes w g : In g (nodup str_dec (filter (fun s => negb (blank s)) (substrings sizes w))) <-> piece sizes w g.
Proof.
  rewrite nodup_In, filter_In, substrings_in, negb_true_iff. unfold piece. tauto.
Qed.
Lemma splitWord_gram sizes w g : In g (splitWord sizes w) <-> gram sizes w g.
Proof.
  unfold splitWord, gram. pose proof (pieces_in sizes w) as P. destruct (nodup str_dec _) as [|a l].
  - assert (N : forall p, ~ piece sizes w p) by (intros p H; apply P in H; exact H). cbn [In]. split.
    + intros [<-|[]]. right. auto.
    + intros [H|[_ ->]]; [apply N in H; contradiction|auto].
  - rewrite P. split; [tauto|]. intros [H|[N ->]]; [exact H|]. exfalso. apply (N a). apply P. left. reflexivity.
Qed.
Lemma splitWord_NoDup sizes w : NoDup (splitWord sizes w).
Proof.
  unfold splitWord. pose proof (NoDup_nodup str_dec (filter (fun s => negb (blank s)) (substrings sizes w))) as N.
  destruct (nodup str_dec _); [constructor; [intros []|constructor]|exact N].
Qed.
Lemma splitWord_lists sizes w : lists_grams sizes w (splitWord sizes w).
Proof. split; [apply splitWord_NoDup|]. intros g. apply splitWord_gram. Qed.
Definition hasb (lower : str -> str) (sizes : list nat) (w g : str) : bool := if in_dec str_dec g (splitWord sizes (lower w)) then true else false.
Lemma hasb_decides lower sizes : decides_gram lower sizes (hasb lower sizes).
Proof. intros w g. rewrite <- splitWord_gram. unfold hasb. destruct in_dec; split; intros H; try assumption; try reflexivity; try discriminate; contradiction. Qed.

(** ** Effect of Adds *)
Definition ids (cm : CM) (g : str) : list N := match get str_dec (SubstringToID cm) g with Some l => l | None => [] end.
Definition okidx (cm : CM) : Prop := forall g l, get str_dec (SubstringToID cm) g = Some l -> NoDup l /\ l <> [].
Lemma insert_in i l x : In x (insert i l) <-> x = i \/ In x l.
Proof. unfold insert. destruct in_dec as [I|I]; [split; [auto|intros [->|H]; assumption]|]. rewrite in_app_iff. cbn [In]. assert (i = x <-> x = i) by (split; congruence). tauto. Qed.
Lemma insert_ok i l : NoDup l -> NoDup (insert i l) /\ insert i l <> [].
Proof.
  intros N. unfold insert. destruct in_dec as [I|I]; [split; [exact N|intros ->; exact I]|]. split; [|destruct l; discriminate].
  apply (Permutation_NoDup (Permutation_cons_append l i)). constructor; assumption.
Qed.
Definition subids (m : list (str * list N)) (g : str) : list N := match get str_dec m g with Some l => l | None => [] end.
Definition okmap (m : list (str * list N)) : Prop := forall g l, get str_dec m g = Some l -> NoDup l /\ l <> [].
Lemma subids_NoDup m g : okmap m -> NoDup (subids m g).
Proof. intros O. unfold subids. destruct (get str_dec m g) eqn:E; [apply (O g _ E)|constructor]. Qed.
Lemma add_sub_ok m g id : okmap m -> okmap (add_sub m g id).
Proof.
  intros O g' l. unfold add_sub. fold (subids m g). rewrite get_put. destruct (str_dec g' g); [|apply O]. intros E. injection E as <-. apply insert_ok. apply subids_NoDup. exact O.
Qed.
Lemma add_sub_in m g id g' x : In x (subids (add_sub m g id) g') <-> In x (subids m g') \/ (g' = g /\ x = id).
Proof.
  unfold subids at 1, add_sub. fold (subids m g). rewrite get_put. destruct (str_dec g' g) as [->|Ne].
  - rewrite insert_in. tauto.
  - fold (subids m g'). tauto.
Qed.
Lemma add_subs_ok order id : forall m, okmap m -> okmap (fold_left (fun m g => add_sub m g id) order m).
Proof. induction order as [|g order IH]; intros m O; [exact O|]. cbn [fold_left]. apply IH. apply add_sub_ok. exact O. Qed.
Lemma add_subs_in order id g' x : forall m, In x (subids (fold_left (fun m g => add_sub m g id) order m) g') <-> In x (subids m g') \/ (In g' order /\ x = id).
Proof.
  induction order as [|g order IH]; intros m; cbn [fold_left In]; [tauto|]. rewrite IH, add_sub_in. assert (g = g' <-> g' = g) by (split; congruence). tauto.
Qed.
Section Adds.
  Variable lower : str -> str.
  Lemma Adds_sizes cm i ws cm' : Adds lower cm i ws cm' -> SubstringSizes cm' = SubstringSizes cm.
  Proof. induction 1; [reflexivity|]. rewrite IHAdds. reflexivity. Qed.
  Lemma Adds_ok cm i ws cm' : Adds lower cm i ws cm' -> okmap (SubstringToID cm) -> okmap (SubstringToID cm').
  Proof. induction 1; intros O; [exact O|]. apply IHAdds. apply add_subs_ok. exact O. Qed.
  Lemma Adds_in cm i ws cm' : Adds lower cm i ws cm' -> forall g x,
    In x (subids (SubstringToID cm') g) <-> In x (subids (SubstringToID cm) g) \/ exists j w, nth_error ws j = Some w /\ x = uint32 (i + j) /\ In g (splitWord (SubstringSizes cm) (lower w)).
  Proof.
    induction 1 as [cm i|cm i s rest order cm' P A IH]; intros g x.
    - split; [auto|]. intros [H|[j [w [H _]]]]; [exact H|destruct j; discriminate].
    - rewrite IH. unfold add_word at 1. cbn [SubstringToID]. rewrite add_subs_in. cbn [SubstringSizes]. split.
      + intros [[H|[H1 ->]]|[j [w [H1 [H2 H3]]]]]; [auto| |].
        * right. exists 0, s. rewrite Nat.add_0_r. split; [reflexivity|]. split; [reflexivity|]. exact (Permutation_in _ P H1).
        * right. exists (S j), w. replace (i + S j) with (S i + j) by lia. auto.
      + intros [H|[[|j] [w [H1 [H2 H3]]]]]; [auto| |].
        * cbn in H1. injection H1 as <-. rewrite Nat.add_0_r in H2. left. right. split; [exact (Permutation_in _ (Permutation_sym P) H3)|exact H2].
        * right. exists j, w. replace (S i + j) with (i + S j) by lia. auto.
  Qed.
  Lemma uint32_inj i j : (N.of_nat i < 2 ^ 32)%N -> (N.of_nat j < 2 ^ 32)%N -> uint32 i = uint32 j -> i = j.
  Proof. unfold uint32. intros H1 H2. rewrite !N.mod_small by assumption. lia. Qed.
  Lemma Adds_key_old cm i ws cm' x : Adds lower cm i ws cm' -> (forall j, j < length ws -> x <> uint32 (i + j)) -> key_of cm' x = key_of cm x.
  Proof.
    induction 1 as [cm i|cm i s rest order cm' P A IH]; intros H; [reflexivity|]. rewrite IH.
    - unfold key_of, add_word. cbn [ID]. rewrite get_put. destruct (N.eq_dec x (uint32 i)) as [E|]; [|reflexivity]. exfalso. apply (H 0); [cbn; lia|]. rewrite Nat.add_0_r. exact E.
    - intros j L. replace (S i + j) with (i + S j) by lia. apply H. cbn. lia.
  Qed.
  Lemma Adds_key cm i ws cm' : Adds lower cm i ws cm' -> (N.of_nat (i + length ws) <= 2 ^ 32)%N -> forall j w, nth_error ws j = Some w -> key_of cm' (uint32 (i + j)) = w.
  Proof.
    induction 1 as [cm i|cm i s rest order cm' P A IH]; intros B j w H; [destruct j; discriminate|]. cbn [length] in B. destruct j as [|j].
    - cbn in H. injection H as <-. rewrite Nat.add_0_r. erewrite Adds_key_old; [|exact A|].
      + unfold key_of, add_word. cbn [ID]. rewrite get_put. destruct N.eq_dec; [reflexivity|contradiction].
      + intros j L E. apply uint32_inj in E; lia.
    - replace (i + S j) with (S i + j) by lia. apply IH; [|exact H]. replace (S i + length rest) with (i + S (length rest)) by lia. exact B.
  Qed.

  (** ** New *)
  Variable sizes : list nat.
  Lemma nth_seq {A} (l : list A) : forall j w, nth_error l j = Some w -> j < length l.
  Proof. intros j w H. apply nth_error_Some. congruence. Qed.
  Notation has := (hasb lower sizes).
  Lemma hasb_in w g : has w g = true <-> In g (splitWord sizes (lower w)).
  Proof. unfold hasb. destruct in_dec; split; intros H; try assumption; try reflexivity; try discriminate; contradiction. Qed.
  Lemma New_ids ws cm g : New lower ws sizes cm -> fits ws ->
    Permutation (subids (SubstringToID cm) g) (map uint32 (filter (fun j => has (nth j ws []) g) (seq 0 (length ws)))).
  Proof.
    intros A F. apply NoDup_Permutation.
    - apply subids_NoDup. apply (Adds_ok _ _ _ _ A). intros g' l E. discriminate.
    - assert (forall l, NoDup l -> (forall j, In j l -> j < length ws) -> NoDup (map uint32 l)) as K.
      { clear A. intros l. induction 1 as [|a l N1 N2 IH]; intros H; [constructor|]. cbn [map]. constructor.
        - rewrite in_map_iff. intros [b [E I]]. unfold fits in F. apply uint32_inj in E; [subst; contradiction| |].
          + specialize (H b ltac:(right; exact I)). lia.
          + specialize (H a ltac:(left; reflexivity)). lia.
        - apply IH. intros j I. apply H. right. exact I. }
      apply K; [apply NoDup_filter; apply seq_NoDup|]. intros j I. apply filter_In in I. destruct I as [I _]. apply in_seq in I. lia.
    - intros x. rewrite (Adds_in _ _ _ _ A). cbn [SubstringToID SubstringSizes]. unfold subids at 1. cbn [get In]. rewrite in_map_iff. split.
      + intros [[]|[j [w [H1 [H2 H3]]]]]. exists j. split; [auto|]. apply filter_In. split; [apply in_seq; apply nth_seq in H1; lia|].
        rewrite (nth_error_nth _ _ _ H1). apply hasb_in. exact H3.
      + intros [j [<- I]]. apply filter_In in I. destruct I as [I1 I2]. apply in_seq in I1. right. exists j, (nth j ws []).
        split; [apply nth_error_nth'; lia|]. split; [reflexivity|]. apply hasb_in. exact I2.
  Qed.
  Lemma New_key ws cm j : New lower ws sizes cm -> fits ws -> j < length ws -> key_of cm (uint32 j) = nth j ws [].
  Proof. intros A F L. apply (Adds_key _ _ _ _ A F j). apply nth_error_nth'. exact L. Qed.
  Lemma filter_nth {A} (f : A -> bool) (d : A) l : map (fun j => nth j l d) (filter (fun j => f (nth j l d)) (seq 0 (length l))) = filter f l.
  Proof.
    assert (G : forall l pre, map (fun j => nth j (pre ++ l) d) (filter (fun j => f (nth j (pre ++ l) d)) (seq (length pre) (length l))) = filter f l).
    { clear l. induction l as [|a l IH]; intros pre; [reflexivity|]. cbn [length seq filter]. rewrite app_nth2, Nat.sub_diag by lia. cbn [nth].
      specialize (IH (pre ++ [a])). rewrite app_length in IH. cbn [length] in IH. rewrite Nat.add_1_r, <- app_assoc in IH. cbn [app] in IH.
      destruct (f a); cbn [map]; [|exact IH]. rewrite app_nth2, Nat.sub_diag by lia. cbn [nth]. f_equal. exact IH. }
    exact (G l []).
  Qed.
  Lemma New_ids_length ws cm g : New lower ws sizes cm -> fits ws -> length (subids (SubstringToID cm) g) = length (filter (fun w => has w g) ws).
  Proof.
    intros A F. rewrite (Permutation_length (New_ids ws cm g A F)), map_length, <- (filter_nth (fun w => has w g) [] ws), map_length. reflexivity.
  Qed.
  Lemma contrib_sub cm g k : contrib cm g k = sum (fun id => if str_dec k (key_of cm id) then term k (1000 / length (subids (SubstringToID cm) g)) else 0) (subids (SubstringToID cm) g).
  Proof. unfold contrib, subids. destruct (get str_dec (SubstringToID cm) g); reflexivity. Qed.
  Lemma sum_map {A B} (f : B -> nat) (h : A -> B) l : sum f (map h l) = sum (fun a => f (h a)) l.
  Proof. unfold sum. rewrite map_map. reflexivity. Qed.
  Lemma sum_count ws k c : sum (fun w => if str_dec k w then c else 0) ws = count_occ str_dec ws k * c.
  Proof.
    induction ws as [|a ws IH]; [reflexivity|]. rewrite sum_cons, IH. cbn [count_occ]. destruct (str_dec k a) as [E|N]; destruct (str_dec a k) as [E'|N']; try congruence; cbn; lia.
  Qed.
  Lemma count_filter (f : str -> bool) ws k : count_occ str_dec (filter f ws) k = if f k then count_occ str_dec ws k else 0.
  Proof.
    induction ws as [|a ws IH]; [destruct (f k); reflexivity|]. cbn [filter count_occ]. destruct (f a) eqn:E; cbn [count_occ]; rewrite IH; destruct (str_dec a k) as [->|]; try reflexivity; rewrite E; reflexivity.
  Qed.
  Lemma New_contrib ws cm g k : New lower ws sizes cm -> fits ws ->
    contrib cm g k = if has k g then count_occ str_dec ws k * (1 + 1000 / length k + 1000 / length (filter (fun w => has w g) ws)) else 0.
  Proof.
    intros A F. rewrite contrib_sub, (New_ids_length ws cm g A F). set (c := 1000 / length (filter _ ws)). rewrite (sum_perm _ _ _ (New_ids ws cm g A F)), sum_map.
    rewrite (sum_ext _ (fun j => if str_dec k (nth j ws []) then term k c else 0)).
    2:{ intros j I. apply filter_In in I. destruct I as [I _]. apply in_seq in I. rewrite (New_key ws cm j A F) by lia. reflexivity. }
    rewrite <- (sum_map (fun w => if str_dec k w then term k c else 0) (fun j => nth j ws [])), (filter_nth (fun w => has w g)), sum_count, (count_filter (fun w => has w g)).
    destruct (has k g); reflexivity.
  Qed.
  Lemma New_bad ws cm g : New lower ws sizes cm -> fits ws -> (bad cm g <-> In [] ws /\ has [] g = true).
  Proof.
    intros A F. pose proof (New_ids ws cm g A F) as P. assert (O : okmap (SubstringToID cm)) by (apply (Adds_ok _ _ _ _ A); intros g' l E; discriminate).
    unfold bad. split.
    - intros [l [E B]]. assert (S1 : subids (SubstringToID cm) g = l) by (unfold subids; rewrite E; reflexivity). rewrite S1 in P.
      destruct B as [->|[id [I K]]]; [apply O in E; destruct E; contradiction|].
      apply (Permutation_in _ P), in_map_iff in I. destruct I as [j [<- I]]. apply filter_In in I. destruct I as [I1 I2]. apply in_seq in I1.
      rewrite (New_key ws cm j A F) in K by lia. rewrite K in I2. split; [|exact I2]. rewrite <- K. apply nth_In. lia.
    - intros [I H]. apply (In_nth _ _ []) in I. destruct I as [j [L E]].
      assert (I2 : In (uint32 j) (subids (SubstringToID cm) g)).
      { apply (Permutation_in _ (Permutation_sym P)). apply in_map. apply filter_In. split; [apply in_seq; lia|rewrite E; exact H]. }
      unfold subids in I2. destruct (get str_dec (SubstringToID cm) g) as [l|]; [|contradiction]. exists l. split; [reflexivity|]. right. exists (uint32 j). split; [exact I2|].
      rewrite (New_key ws cm j A F L). exact E.
  Qed.
End Adds.

(** ** What match returns *)
Definition total (cm : CM) (q k : str) : nat := sum (fun g => contrib cm g k) (splitWord (SubstringSizes cm) q).
Lemma match_total cm q m : match_ cm q m -> posmap m /\ (forall k, val m k = total cm q k) /\ Forall (fun g => ~ bad cm g) (splitWord (SubstringSizes cm) q).
Proof.
  intros [s [[order [k [P R]]] [RT <-]]]. pose proof (Inv_runs _ _ _ _ R) as I. destruct I as [[wl [gs [seen [P2 [Fw [Fr [Ls [Ga [Va Gb]]]]]]]]] Ic Ie Io Io2 Iw Irc Irt].
  assert (E : received s = length order) by (apply Irt; exact RT).
  assert (Ps : Permutation order seen).
  { assert (L : length (todo s ++ jobs s ++ concat wl ++ gs) = 0) by (apply Permutation_length in P2; rewrite !app_length in *; lia).
    assert (E2 : todo s ++ jobs s ++ concat wl ++ gs = []) by (apply length_zero_iff_nil; exact L).
    replace (todo s ++ jobs s ++ concat wl ++ gs ++ seen) with ((todo s ++ jobs s ++ concat wl ++ gs) ++ seen) in P2 by (rewrite <- !app_assoc; reflexivity).
    rewrite E2 in P2. exact P2. }
  split; [exact Ga|]. split.
  - intros k'. rewrite Va. unfold total. apply sum_perm. rewrite <- Ps. exact P.
  - rewrite Forall_forall in *. intros g H. apply Gb. apply (Permutation_in _ Ps). apply (Permutation_in _ (Permutation_sym P)). exact H.
Qed.
