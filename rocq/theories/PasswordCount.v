(** * Counting choice sequences. *)
From Coq Require Import ZArith List ListDec Bool Lia Permutation Factorial Arith.
From Verif Require Import PasswordModel PasswordProofs PasswordSpec.
Import ListNotations.
Open Scope nat_scope.

Definition remove_at (i : nat) (w : list Z) : list Z := firstn i w ++ skipn (S i) w.

Lemma list_eqb_true a b : list_eqb a b = true <-> a = b.
Proof. unfold list_eqb. destruct (list_eq_dec Z.eq_dec a b); split; congruence. Qed.
Lemma memb_true x s : memb x s = true <-> In x s.
Proof.
  unfold memb. rewrite existsb_exists. split.
  - intros [y [H E]]. apply Z.eqb_eq in E. subst. exact H.
  - intros H. exists x. split; [exact H | apply Z.eqb_refl].
Qed.

Lemma insert_length i x s : length (insert_at i x s) = S (length s).
Proof.
  unfold insert_at. rewrite app_length. cbn [length].
  rewrite <- (firstn_skipn i s) at 3. rewrite app_length. lia.
Qed.
Lemma build_length v : length (build v) = length v.
Proof. induction v as [|[ch i] v IH]; [reflexivity|]. cbn [build]. rewrite insert_length, IH. reflexivity. Qed.
Lemma choices_length sets : forall v, In v (choices sets) -> length v = length sets.
Proof.
  induction sets as [|set sets IH]; intros v H; cbn [choices] in H.
  - destruct H as [<-|[]]. reflexivity.
  - apply in_flat_map in H. destruct H as [v' [H1 H2]]. apply in_flat_map in H2. destruct H2 as [ch [_ H2]].
    apply in_map_iff in H2. destruct H2 as [i [<- _]]. cbn. f_equal. apply IH, H1.
Qed.

Lemma insert_inv i x s w : i <= length s ->
  insert_at i x s = w <-> (length w = S (length s) /\ nth i w 0%Z = x /\ remove_at i w = s).
Proof.
  intros Hi. split.
  - intros <-. split; [apply insert_length|].
    assert (L : length (firstn i s) = i) by (rewrite firstn_length; lia).
    unfold insert_at, remove_at. split.
    + rewrite app_nth2 by lia. rewrite L, Nat.sub_diag. reflexivity.
    + rewrite firstn_app, L, Nat.sub_diag. cbn [firstn]. rewrite app_nil_r, firstn_firstn, Nat.min_id.
      rewrite skipn_app, L. rewrite skipn_all2 by lia. cbn [app].
      replace (S i - i) with 1 by lia. cbn [skipn]. apply firstn_skipn.
  - intros [L [<- <-]]. unfold insert_at, remove_at.
    assert (Lf : length (firstn i w) = i) by (rewrite firstn_length; lia).
    rewrite firstn_app, Lf, Nat.sub_diag. cbn [firstn]. rewrite app_nil_r, firstn_firstn, Nat.min_id.
    rewrite skipn_app, Lf. rewrite skipn_all2 by lia. rewrite Nat.sub_diag. cbn [app skipn].
    rewrite <- (firstn_skipn i w) at 4. f_equal.
    clear - L. assert (i < length w \/ length w <= i) as [H|H] by lia; [|].
    2:{ exfalso. unfold remove_at in L. rewrite app_length, firstn_length, skipn_length in L. lia. }
    clear L. revert i H. induction w as [|y w IH]; intros i H; [cbn in H; lia|].
    destruct i; [reflexivity|]. cbn [skipn nth]. rewrite <- IH by (cbn in H; lia). reflexivity.
Qed.

Definition sum (l : list nat) : nat := fold_right Nat.add 0 l.
Lemma sum_app a b : sum (a ++ b) = sum a + sum b.
Proof. induction a as [|x a IH]; cbn [app]; [reflexivity|]. change (sum (x :: ?l)) with (x + sum l). rewrite IH. lia. Qed.
Lemma filter_flat_map_length {A B} (f : A -> list B) (p : B -> bool) l :
  length (filter p (flat_map f l)) = sum (map (fun x => length (filter p (f x))) l).
Proof.
  induction l as [|x l IH]; [reflexivity|]. cbn [flat_map map]. rewrite filter_app, app_length, IH. reflexivity.
Qed.
Lemma filter_map_length {A B} (f : A -> B) (p : B -> bool) l :
  length (filter p (map f l)) = length (filter (fun x => p (f x)) l).
Proof. induction l as [|x l IH]; [reflexivity|]. cbn. destruct (p (f x)); cbn; rewrite IH; reflexivity. Qed.
Lemma length_filter_sum {A} (p : A -> bool) l : length (filter p l) = sum (map (fun x => if p x then 1 else 0) l).
Proof. induction l as [|x l IH]; [reflexivity|]. cbn. destruct (p x); cbn; rewrite IH; reflexivity. Qed.
Lemma sum_swap {A B} (f : A -> B -> nat) (la : list A) (lb : list B) :
  sum (map (fun a => sum (map (f a) lb)) la) = sum (map (fun b => sum (map (fun a => f a b) la)) lb).
Proof.
  induction la as [|a la IH]; cbn [map].
  - induction lb as [|b lb IHb]; [reflexivity|]. cbn. exact IHb.
  - change (sum (?x :: ?l)) with (x + sum l). rewrite IH. clear IH.
    induction lb as [|b lb IHb]; [reflexivity|]. cbn [map].
    change (sum (?x :: ?l)) with (x + sum l). cbn [map] in *.
    change (sum (?x :: ?l)) with (x + sum l) in *. lia.
Qed.
Lemma sum_ext {A} (f g : A -> nat) l : (forall x, In x l -> f x = g x) -> sum (map f l) = sum (map g l).
Proof. intros H. f_equal. apply map_ext_in, H. Qed.

(** The recursion for the number of ways. *)
Lemma ways_step set sets w : NoDup set -> length w = S (length sets) ->
  ways (set :: sets) w
  = sum (map (fun i => if memb (nth i w 0%Z) set then ways sets (remove_at i w) else 0) (seq 0 (S (length sets)))).
Proof.
  intros Nd Lw. unfold ways at 1. cbn [choices]. rewrite filter_flat_map_length.
  erewrite sum_ext.
  2:{ intros v Hv. rewrite filter_flat_map_length. erewrite sum_ext.
      2:{ intros ch _. rewrite filter_map_length, length_filter_sum. cbn [build].
          erewrite sum_ext; [reflexivity|]. intros i Hi. apply in_seq in Hi.
          pose proof (insert_inv i ch (build v) w) as I. rewrite build_length, (choices_length _ _ Hv) in I.
          specialize (I ltac:(lia)).
          assert (E : (if list_eqb (insert_at i ch (build v)) w then 1 else 0)
                    = (if Z.eqb (nth i w 0%Z) ch then (if list_eqb (build v) (remove_at i w) then 1 else 0) else 0)).
          { destruct (list_eqb (insert_at i ch (build v)) w) eqn:E1.
            - apply list_eqb_true in E1. apply I in E1. destruct E1 as [_ [-> <-]]. rewrite Z.eqb_refl.
              assert (list_eqb (remove_at i w) (remove_at i w) = true) as -> by (apply list_eqb_true; reflexivity). reflexivity.
            - destruct (Z.eqb_spec (nth i w 0%Z) ch) as [E2|E2]; [|reflexivity].
              destruct (list_eqb (build v) (remove_at i w)) eqn:E3; [|reflexivity].
              apply list_eqb_true in E3. assert (insert_at i ch (build v) = w) as E4 by (apply I; auto).
              apply list_eqb_true in E4. congruence. }
          exact E. }
      rewrite sum_swap. erewrite sum_ext; [reflexivity|]. intros i _.
      assert (E : sum (map (fun ch => if (nth i w 0 =? ch)%Z then if list_eqb (build v) (remove_at i w) then 1 else 0 else 0) set)
              = if memb (nth i w 0%Z) set then (if list_eqb (build v) (remove_at i w) then 1 else 0) else 0).
      { generalize (if list_eqb (build v) (remove_at i w) then 1 else 0). intros K.
        generalize (nth i w 0%Z). intros x. clear - Nd. induction Nd as [|y set Hy Nd IH]; [reflexivity|].
        cbn [map]. change (sum (?x :: ?l)) with (x + sum l). rewrite IH. cbn [memb existsb]. fold (memb x set).
        destruct (Z.eqb_spec x y) as [->|E]; cbn [orb]; [|reflexivity].
        destruct (memb y set) eqn:M; [|lia]. apply memb_true in M. contradiction. }
      exact E. }
  rewrite sum_swap. apply sum_ext. intros i _.
  destruct (memb (nth i w 0%Z) set).
  - unfold ways. rewrite length_filter_sum. reflexivity.
  - clear. induction (choices sets) as [|v l IH]; [reflexivity|]. cbn. exact IH.
Qed.
Lemma ways_length sets w : length w <> length sets -> ways sets w = 0.
Proof.
  intros H. unfold ways. replace (filter _ _) with (@nil (list (Z * nat))); [reflexivity|].
  symmetry. assert (F : forall v, In v (choices sets) -> list_eqb (build v) w = false).
  { intros v Hv. destruct (list_eqb (build v) w) eqn:E; [|reflexivity]. apply list_eqb_true in E. subst w.
    rewrite build_length, (choices_length _ _ Hv) in H. contradiction. }
  induction (choices sets) as [|v l IH]; [reflexivity|]. cbn.
  rewrite F by (left; reflexivity). apply IH. intros u Hu. apply F. right. exact Hu.
Qed.

Lemma count_split X w i : i < length w ->
  count_in X w = count_in X (remove_at i w) + (if memb (nth i w 0%Z) X then 1 else 0).
Proof.
  unfold count_in, remove_at. revert i. induction w as [|x w IH]; intros i H; [cbn in H; lia|].
  destruct i as [|i].
  - cbn [nth firstn app skipn filter]. destruct (memb x X); cbn [length]; lia.
  - cbn [nth]. rewrite firstn_cons. change (skipn (S (S i)) (x :: w)) with (skipn (S i) w). cbn [app filter].
    specialize (IH i ltac:(cbn in H; lia)). destruct (memb x X); cbn [length]; lia.
Qed.
Lemma remove_length i w : i < length w -> length (remove_at i w) = length w - 1.
Proof. intros H. unfold remove_at. rewrite app_length, firstn_length, skipn_length. lia. Qed.
Lemma sum_count X w K : sum (map (fun i => if memb (nth i w 0%Z) X then K else 0) (seq 0 (length w))) = count_in X w * K.
Proof.
  unfold count_in. induction w as [|x w IH]; [reflexivity|].
  cbn [length seq map]. change (sum (?x :: ?l)) with (x + sum l).
  rewrite <- seq_shift, map_map. cbn [nth filter]. rewrite IH. destruct (memb x X); cbn [length]; lia.
Qed.

Definition disjoint (a b : list Z) : Prop := forall x, In x a -> In x b -> False.
Lemma memb_disjoint a b x : disjoint a b -> memb x a = true -> memb x b = false.
Proof.
  intros H M. destruct (memb x b) eqn:E; [|reflexivity]. apply memb_true in M, E. destruct (H x M E).
Qed.
Lemma disjoint_sym a b : disjoint a b -> disjoint b a.
Proof. intros H x A B. exact (H x B A). Qed.

Lemma sum_if X w K (f : nat -> nat) :
  (forall i, i < length w -> memb (nth i w 0%Z) X = true -> f i = K) ->
  sum (map (fun i => if memb (nth i w 0%Z) X then f i else 0) (seq 0 (length w))) = count_in X w * K.
Proof.
  intros H. rewrite <- sum_count. apply sum_ext. intros i Hi. apply in_seq in Hi.
  destruct (memb (nth i w 0%Z) X) eqn:M; [apply H; [lia|exact M]|reflexivity].
Qed.

Section Ways.
  Variables L D S_ : list Z.
  Hypotheses (NL : NoDup L) (ND : NoDup D) (NS : NoDup S_).
  Hypotheses (LD : disjoint L D) (LS : disjoint L S_) (DS : disjoint D S_).

  Lemma steps_length c d s : length (steps L D S_ c d s) = s + d + c.
  Proof. unfold steps. rewrite !app_length, !repeat_length. lia. Qed.

  Lemma ways_count_aux n : forall c d s w, c + d + s = n -> composed L D S_ c d s w ->
    ways (steps L D S_ c d s) w = fact c * fact d * fact s.
  Proof.
    induction n as [|n IH]; intros c d s w En [Lw [Cl [Cd Cs]]].
    - assert (c = 0 /\ d = 0 /\ s = 0) as [-> [-> ->]] by lia. destruct w; [|discriminate Lw]. reflexivity.
    - assert (X : forall i, i < length w ->
        count_in L w = count_in L (remove_at i w) + (if memb (nth i w 0%Z) L then 1 else 0) /\
        count_in D w = count_in D (remove_at i w) + (if memb (nth i w 0%Z) D then 1 else 0) /\
        count_in S_ w = count_in S_ (remove_at i w) + (if memb (nth i w 0%Z) S_ then 1 else 0)).
      { intros i Hi. rewrite <- !count_split by exact Hi. auto. }
      destruct s as [|s].
      + destruct d as [|d].
        * destruct c as [|c]; [lia|].
          change (steps L D S_ (S c) 0 0) with (L :: steps L D S_ c 0 0).
          rewrite ways_step; [|exact NL|rewrite steps_length; lia].
          rewrite steps_length. replace (S (0 + 0 + c)) with (length w) by lia.
          rewrite (sum_if L w (fact c * fact 0 * fact 0)).
          -- rewrite Cl. change (fact (S c)) with (S c * fact c). cbn [fact]. lia.
          -- intros i Hi M. destruct (X i Hi) as [X1 [X2 X3]]. rewrite M in X1.
             rewrite (memb_disjoint L D _ LD M) in X2. rewrite (memb_disjoint L S_ _ LS M) in X3.
             apply IH; [lia|]. unfold composed. rewrite remove_length by lia. lia.
        * change (steps L D S_ c (S d) 0) with (D :: steps L D S_ c d 0).
          rewrite ways_step; [|exact ND|rewrite steps_length; lia].
          rewrite steps_length. replace (S (0 + d + c)) with (length w) by lia.
          rewrite (sum_if D w (fact c * fact d * fact 0)).
          -- rewrite Cd. change (fact (S d)) with (S d * fact d). cbn [fact]. lia.
          -- intros i Hi M. destruct (X i Hi) as [X1 [X2 X3]]. rewrite M in X2.
             rewrite (memb_disjoint D L _ (disjoint_sym _ _ LD) M) in X1. rewrite (memb_disjoint D S_ _ DS M) in X3.
             apply IH; [lia|]. unfold composed. rewrite remove_length by lia. lia.
      + change (steps L D S_ c d (S s)) with (S_ :: steps L D S_ c d s).
        rewrite ways_step; [|exact NS|rewrite steps_length; lia].
        rewrite steps_length. replace (S (s + d + c)) with (length w) by lia.
        rewrite (sum_if S_ w (fact c * fact d * fact s)).
        -- rewrite Cs. change (fact (S s)) with (S s * fact s). lia.
        -- intros i Hi M. destruct (X i Hi) as [X1 [X2 X3]]. rewrite M in X3.
           rewrite (memb_disjoint S_ L _ (disjoint_sym _ _ LS) M) in X1.
           rewrite (memb_disjoint S_ D _ (disjoint_sym _ _ DS) M) in X2.
           apply IH; [lia|]. unfold composed. rewrite remove_length by lia. lia.
  Qed.
  Lemma ways_count c d s w : composed L D S_ c d s w ->
    ways (steps L D S_ c d s) w = fact c * fact d * fact s.
  Proof. apply (ways_count_aux (c + d + s)). reflexivity. Qed.
End Ways.

(** Without repeats: the chosen characters are exactly those of the password. *)
Lemma build_perm v : Permutation (build v) (map fst v).
Proof.
  induction v as [|[ch i] v IH]; [constructor|]. cbn [build map fst]. unfold insert_at.
  apply Permutation_sym. apply Permutation_cons_app.
  rewrite firstn_skipn. apply Permutation_sym, IH.
Qed.
Lemma ways_norepeat_nodup sets w : NoDup w -> ways_norepeat sets w = ways sets w.
Proof.
  intros Nd. unfold ways_norepeat, ways. f_equal. apply filter_ext. intros v.
  destruct (list_eqb (build v) w) eqn:E; [|apply andb_false_r].
  apply list_eqb_true in E. rewrite andb_true_r. unfold nodupb.
  destruct (NoDup_dec Z.eq_dec (map fst v)) as [_|N]; [reflexivity|]. exfalso. apply N.
  subst w. apply (Permutation_NoDup (build_perm v) Nd).
Qed.
