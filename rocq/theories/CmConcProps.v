(** * C73: searches and Adds on one index at the same time. *)
From Coq Require Import String.
From Coq Require Import ZArith NArith Arith List Bool Permutation Lia.
From Verif Require Import Utf8 GoStr CmModel CmSpec CmProofs CmIndex CmProps CmConc CmConcProofs.
Import ListNotations.
Open Scope nat_scope.

(** What the map r gives to the word k. *)
Definition points (r : list (str * nat)) (k : str) : nat := match get str_dec r k with Some v => v | None => 0 end.

Section C73.
  Variable lower : str -> str.

  (** ** A search is a mixture of versions *)
  (** A search that overlaps with Adds: every substring of the query is looked up once, in a version of the index that was current at some time
      during the search, and the points are summed. *)
  Theorem C73_mixture cm calls w p q since m : after lower cm calls w -> found w p q since m ->
    exists parts : list (str * (CM * list (str * nat))),
      lists_grams (SubstringSizes cm) q (map fst parts) /\
      (forall g c r, In (g, (c, r)) parts -> In c (skipn since (versions w)) /\ work c g (Some r)) /\
      NoDup (map fst m) /\
      forall k v, In (k, v) m <-> 0 < v /\ v = list_sum (map (fun x => points (snd (snd x)) k) parts).
  Proof.
    intros [n R] [order [s [E [Rt ->]]]]. apply WInv_runs in R. destruct (w_search _ _ R _ _ _ _ _ E) as [P [Ln G]].
    destruct (GInv_returned _ _ _ G Rt) as [parts [Pp [Fp [Pm V]]]].
    assert (X : exists ps : list (str * (CM * list (str * nat))), map fst ps = map fst parts /\
      (forall g c r, In (g, (c, r)) ps -> In c (skipn since (versions w)) /\ work c g (Some r)) /\
      forall k, sum (fun gc => contrib (snd gc) (fst gc) k) parts = list_sum (map (fun x => points (snd (snd x)) k) ps)).
    { clear - Fp. induction Fp as [|[g c] parts [I B] F IH]; [exists []; split; [reflexivity|]; split; [intros ? ? ? []|reflexivity]|].
      destruct IH as [ps [E1 [E2 E3]]]. cbn [fst snd] in *. destruct (work_total c g) as [[r|] [W Nn]]; [|exfalso; apply B, Nn; reflexivity].
      exists ((g, (c, r)) :: ps). split; [cbn; congruence|]. split.
      - intros g' c' r' [H|H]; [injection H as <- <- <-; auto|exact (E2 _ _ _ H)].
      - intros k. rewrite sum_cons. cbn [fst snd map]. change (list_sum (?a :: ?b)) with (a + list_sum b). rewrite E3. destruct (work_ok _ _ _ W) as [_ [V _]]. rewrite <- V. reflexivity. }
    destruct X as [ps [E1 [E2 E3]]]. exists ps. split.
    - rewrite E1. destruct (splitWord_lists (SubstringSizes cm) q) as [N L]. pose proof (Permutation_trans Pp P) as PP. split.
      + apply (Permutation_NoDup (Permutation_sym PP) N).
      + intros g. rewrite <- L. split; apply Permutation_in; [exact PP|apply Permutation_sym; exact PP].
    - split; [exact E2|]. split; [apply Pm|]. intros k v. rewrite (posmap_in _ _ _ Pm), V, E3. intuition lia.
  Qed.

  (** ** Which versions *)
  Lemma versions_step w w' : wstep lower w (Some w') -> exists later, versions w' = versions w ++ later /\ history w' = firstn (length (history w')) (versions w ++ later).
  Proof.
    intros ST. inversion ST; subst; unfold versions; cbn [history index]; try (exists []; rewrite app_nil_r, firstn_app, firstn_all, Nat.sub_diag; cbn [firstn]; rewrite app_nil_r; auto; fail).
    exists [cm']. split; [reflexivity|]. rewrite firstn_app, firstn_all, Nat.sub_diag. cbn [firstn]. rewrite app_nil_r. reflexivity.
  Qed.
  Lemma versions_runs k w w' : wruns lower k w w' -> exists later, versions w' = versions w ++ later.
  Proof.
    induction 1 as [w|k w w1 w2 R [l1 E1] ST]; [exists []; rewrite app_nil_r; reflexivity|]. destruct (versions_step _ _ ST) as [l2 [E2 _]]. exists (l1 ++ l2). rewrite E2, E1, app_assoc. reflexivity.
  Qed.
  Lemma versions_length w : length (versions w) = S (length (history w)).
  Proof. unfold versions. rewrite app_length. cbn. lia. Qed.
  Lemma query_since k w w' p q : wruns lower k w w' -> nth_error (procs w) p = Some (Query q) ->
    nth_error (procs w') p = Some (Query q) \/ exists order since s, nth_error (procs w') p = Some (Searching q order since s) /\ length (history w) <= since <= length (history w').
  Proof.
    intros R E. assert (M : length (history w) <= length (history w') /\ (nth_error (procs w') p = Some (Query q) \/ exists order since s, nth_error (procs w') p = Some (Searching q order since s) /\ length (history w) <= since <= length (history w'))).
    2:{ tauto. }
    induction R as [w|k w w1 w2 R IH ST]; [auto|]. destruct (IH E) as [L H]. clear IH.
    inversion ST as [j q1 o1 E1 P1 Q1|j q1 o1 n1 s1 s2 E1 T1 O1 Q1|j q1 o1 n1 s1 s2 E1 T1 O1 O2 L1 Q1|j q1 o1 n1 s1 s2 E1 T1 O1 O2 Q1| |j ws E1 L1 Q1|j ws cm' E1 A1 Q1]; subst; cbn [history procs] in *;
      try (rewrite app_length; cbn [length]); (split; [lia|]);
      (destruct (Nat.eq_dec p j) as [<-|N];
       [ rewrite (set_same _ _ _ _ E1); rewrite E1 in H
       | rewrite set_other by exact N; destruct H as [H|[o [n [s [H Hn]]]]]; [left; exact H|right; exists o, n, s; split; [exact H|lia]] ]);
      destruct H as [H|[o [n [s [H Hn]]]]]; try discriminate; first [injection H as -> -> -> ->|injection H as ->].
    - right. eexists _, _, _. split; [reflexivity|lia].
    - right. exists o, n, s2. split; [reflexivity|lia].
    - right. exists o, n, s2. split; [reflexivity|lia].
    - right. exists o, n, s2. split; [reflexivity|lia].
  Qed.
  (** A search consults no version of the index older than its call: it sees every Add that had returned by then. *)
  Theorem C73_starts_from k w0 w p q since m : nth_error (procs w0) p = Some (Query q) -> wruns lower k w0 w -> found w p q since m ->
    exists later, versions w = versions w0 ++ later /\ forall c, In c (skipn since (versions w)) -> c = index w0 \/ In c later.
  Proof.
    intros E R [order [s [F _]]]. destruct (versions_runs _ _ _ R) as [later V]. exists later. split; [exact V|].
    destruct (query_since _ _ _ _ _ R E) as [H|[o [n [s' [H [Ln _]]]]]]; rewrite F in H; [discriminate|]. injection H as <- <- <-.
    intros c Hc. rewrite V in Hc. unfold versions in Hc. rewrite <- app_assoc in Hc. rewrite skipn_app in Hc. rewrite skipn_all2 in Hc by exact Ln. cbn [app] in Hc.
    assert (X : forall (l : list CM) i x, In x (skipn i l) -> In x l) by (intros l i x H; rewrite <- (firstn_skipn i l); apply in_or_app; right; exact H).
    apply X in Hc. destruct Hc as [<-|Hc]; auto.
  Qed.
  (** A search during which no Add completes returns what it would return alone. *)
  Theorem C73_undisturbed cm calls w p q m : after lower cm calls w -> found w p q (length (history w)) m ->
    exists m', match_ (index w) q m' /\ Permutation m m'.
  Proof.
    intros [n R] [order [s [E [Rt ->]]]]. apply WInv_runs in R. pose proof (w_sizes _ _ R) as Sz. destruct (w_search _ _ R _ _ _ _ _ E) as [P [Ln G]].
    destruct (GInv_returned _ _ _ G Rt) as [parts [Pp [Fp [Pm V]]]].
    assert (F2 : Forall (fun gc => snd gc = index w /\ ~ bad (index w) (fst gc)) parts).
    { eapply Forall_impl; [|exact Fp]. intros [g c] [I B]. cbn [fst snd] in *. unfold versions in I. rewrite skipn_app, skipn_all, Nat.sub_diag in I. destruct I as [<-|[]]. auto. }
    assert (NC : ~ crashes (index w) q).
    { rewrite crash_bad, Sz. intros [g [I B]]. apply (Permutation_in _ (Permutation_sym (Permutation_trans Pp P))) in I. apply in_map_iff in I. destruct I as [gc [<- I]]. rewrite Forall_forall in F2. apply F2 in I. tauto. }
    destruct (proj2 (C26_returns_or_crashes (index w) q) NC) as [m' M]. exists m'. split; [exact M|]. destruct (match_total _ _ _ M) as [Pm' [V' _]]. apply same_map; [exact Pm|exact Pm'|].
    intros k. rewrite V, V'. unfold total. rewrite Sz, <- (sum_perm _ _ _ (Permutation_trans Pp P)). rewrite sum_map. apply sum_ext. intros gc I. rewrite Forall_forall in F2. apply F2 in I. destruct I as [-> _]. reflexivity.
  Qed.

  (** ** Every call comes to an end *)
  Theorem C73_every_schedule_ends cm calls k w : wruns lower k (begin cm calls) w ->
    k <= list_sum (map (fun c => match c with CallSearch q => 6 * length (splitWord (SubstringSizes cm) q) + 11 | CallAdd _ => 2 end) calls).
  Proof.
    intros R. assert (M : k + sum (pmeasure (SubstringSizes cm)) (procs w) <= sum (pmeasure (SubstringSizes cm)) (procs (begin cm calls))).
    { remember (begin cm calls) as w0 eqn:E. induction R as [w|k w w1 w2 R IH ST]; [lia|]. specialize (IH E). subst w. pose proof (wmeasure_step _ _ _ _ (WInv_runs _ _ _ _ _ R) ST). lia. }
    assert (X : sum (pmeasure (SubstringSizes cm)) (procs (begin cm calls)) = list_sum (map (fun c => match c with CallSearch q => 6 * length (splitWord (SubstringSizes cm) q) + 11 | CallAdd _ => 2 end) calls)).
    { cbn [begin procs]. rewrite sum_map. unfold sum. f_equal. apply map_ext. intros [q|ws]; reflexivity. }
    lia.
  Qed.
  (** If nothing can happen, every search has returned, its workers have ended, and every Add has been done. *)
  Theorem C73_no_deadlock cm calls w : after lower cm calls w -> (forall o, ~ wstep lower w o) ->
    forall p x, nth_error (procs w) p = Some x ->
      (exists q order since s, x = Searching q order since s /\ returned s = true /\ forall v, In v (workers s) -> v = Ended) \/ exists ws, x = Added ws.
  Proof.
    intros [n R] H p x E. destruct (wprogress lower _ w (WInv_runs _ _ _ _ _ R)) as [D|[o ST]]; [|exfalso; exact (H o ST)]. specialize (D p x E).
    destruct x as [q|q order n' s|ws|ws|ws]; try contradiction; [left|right; eauto]. destruct D as [D1 D2]. exists q, order, n', s. split; [reflexivity|]. split; [exact D1|]. apply Forall_forall. exact D2.
  Qed.
  (** Inside the mutex: worker i of the search p, or the Add p. *)
  Definition inside (w : World) (p i : nat) : Prop :=
    (exists q order since s g, nth_error (procs w) p = Some (Searching q order since s) /\ nth_error (workers s) i = Some (Locked g)) \/
    (exists ws, nth_error (procs w) p = Some (AddLocked ws) /\ i = 0).
  Theorem C73_mutual_exclusion cm calls w p i p' i' : after lower cm calls w -> inside w p i -> inside w p' i' -> p = p' /\ i = i'.
  Proof.
    intros [n R] H H'. apply WInv_runs in R. destruct R as [_ Se Lk].
    assert (X : forall p i, inside w p i -> lock w = Some p).
    { intros x j [[q [o [n' [s [g [E W]]]]]]|[ws [E _]]]; apply Lk; [left; exists q, o, n', s; split; [exact E|]|right; eauto].
      destruct (Se _ _ _ _ _ E) as [_ [_ G]]. rewrite (ginv_owner _ _ _ G _ _ W). discriminate. }
    assert (p = p') by (apply X in H; apply X in H'; congruence). subst p'. split; [reflexivity|].
    destruct H as [[q [o [n' [s [g [E W]]]]]]|[ws [E ->]]], H' as [[q' [o' [n1 [s' [g' [E' W']]]]]]|[ws' [E' ->]]]; rewrite E in E'; try discriminate; [|reflexivity].
    injection E' as <- <- <- <-. destruct (Se _ _ _ _ _ E) as [_ [_ G]]. apply (ginv_owner _ _ _ G) in W. apply (ginv_owner _ _ _ G) in W'. congruence.
  Qed.

  (** ** Crashes *)
  (** The program dies only while a search is under way that would crash on the current index anyway. *)
  Theorem C73_crash cm calls w : after lower cm calls w -> wstep lower w None ->
    exists p q order since s, nth_error (procs w) p = Some (Searching q order since s) /\ crashes (index w) q.
  Proof.
    intros [n R] ST. apply WInv_runs in R. inversion ST as [| | | |p q order since s E T| |]; subst. exists p, q, order, since, s. split; [exact E|].
    destruct (w_search _ _ R _ _ _ _ _ E) as [P [_ G]]. destruct (GInv_crash _ _ _ _ G T) as [g [I W]]. apply crash_bad. exists g. rewrite (w_sizes _ _ R). split; [exact (Permutation_in _ P I)|apply work_panic; exact W].
  Qed.
  Definition full (cm : CM) : Prop := okmap (SubstringToID cm) /\ forall g x, In x (subids (SubstringToID cm) g) -> key_of cm x <> [].
  Lemma full_Adds ws : Forall (fun s => s <> []) ws -> forall cm i cm', Adds lower cm i ws cm' -> full cm -> full cm'.
  Proof.
    induction 1 as [|s ws Hs F IH]; intros cm i cm' A Fc; inversion A as [|? ? ? ? order ? P A']; subst; [exact Fc|]. apply (IH _ _ _ A'). destruct Fc as [O K]. split.
    - apply (add_subs_ok order (uint32 i)). exact O.
    - intros g x I. cbn [SubstringToID add_word] in I. apply add_subs_in in I. unfold key_of. cbn [ID add_word]. rewrite get_put. destruct (N.eq_dec x (uint32 i)) as [->|Nx]; [exact Hs|].
      destruct I as [I|[_ ->]]; [apply (K g x I)|contradiction].
  Qed.
  Lemma full_runs cm calls k w : wruns lower k (begin cm calls) w -> full cm -> (forall ws, In (CallAdd ws) calls -> ~ In [] ws) ->
    full (index w) /\ forall p ws, nth_error (procs w) p = Some (Adding ws) \/ nth_error (procs w) p = Some (AddLocked ws) -> ~ In [] ws.
  Proof.
    intros R Fc H. remember (begin cm calls) as w0 eqn:E0. induction R as [w|k w w1 w2 R IH ST]; subst.
    - split; [exact Fc|]. intros p ws E. cbn [begin procs] in E. rewrite !nth_error_map in E. destruct (nth_error calls p) as [[q|ws']|] eqn:Ec; destruct E as [E|E]; try discriminate. injection E as <-. apply H. eapply nth_error_In. exact Ec.
    - destruct (IH eq_refl) as [F1 A1]. clear IH. inversion ST as [j q1 o1 E1 P1 Q1|j q1 o1 n1 s1 s2 E1 T1 O1 Q1|j q1 o1 n1 s1 s2 E1 T1 O1 O2 L1 Q1|j q1 o1 n1 s1 s2 E1 T1 O1 O2 Q1| |j ws E1 L1 Q1|j ws cm' E1 A' Q1]; subst; cbn [index procs];
        (split; [try exact F1|intros p ws' E; destruct (Nat.eq_dec p j) as [->|N]; [rewrite (set_same _ _ _ _ E1) in E; destruct E as [E|E]; try discriminate|rewrite set_other in E by exact N; exact (A1 _ _ E)]]).
      + injection E as <-. apply (A1 j). left. exact E1.
      + apply (full_Adds ws) with (cm := index w1) (i := 0); [|exact A'|exact F1]. apply Forall_forall. intros x Hx ->. exact (A1 j ws (or_intror E1) Hx).
  Qed.
  (** Without an empty word in the list or in an Add, no schedule crashes, whatever is searched for. *)
  Theorem C73_no_crash words sizes cm calls w : New lower words sizes cm -> ~ In [] words -> (forall ws, In (CallAdd ws) calls -> ~ In [] ws) ->
    after lower cm calls w -> ~ wstep lower w None.
  Proof.
    intros A Hw Ha Af ST. destruct (C73_crash _ _ _ Af ST) as [p [q [order [since [s [E C]]]]]]. destruct Af as [k R].
    assert (Fc : full cm).
    { apply (full_Adds words) with (2 := A); [apply Forall_forall; intros x Hx ->; contradiction|]. split; [intros g l X; discriminate|intros g x []]. }
    destruct (full_runs _ _ _ _ R Fc Ha) as [[O K] _]. apply crash_bad in C. destruct C as [g [_ [l [G [->|[x [I Kx]]]]]]]; [apply O in G; tauto|].
    apply (K g x); [|exact Kx]. unfold subids. rewrite G. exact I.
  Qed.

  (** ** No Add is lost *)
  Definition adds_done (l : list Proc) : list (list str) := flat_map (fun p => match p with Added ws => [ws] | _ => [] end) l.
  (** The versions of the index are those of the finished Adds run one after another, in some order. *)
  Theorem C73_adds cm calls w : after lower cm calls w ->
    exists adds, Permutation adds (adds_done (procs w)) /\ length (versions w) = S (length adds) /\ nth_error (versions w) 0 = Some cm /\
      forall i ws, nth_error adds i = Some ws -> exists c c', nth_error (versions w) i = Some c /\ nth_error (versions w) (S i) = Some c' /\ Add lower c ws c'.
  Proof.
    intros [k R]. remember (begin cm calls) as w0 eqn:E0. induction R as [w|k w w1 w2 R IH ST]; subst.
    - exists []. split; [|split; [reflexivity|]; split; [reflexivity|intros [|i] ws E; discriminate]].
      cbn [begin procs]. replace (adds_done (map proc_of calls)) with (@nil (list str)); [reflexivity|]. induction calls as [|[q|ws] l IH]; [reflexivity|exact IH|exact IH].
    - destruct (IH eq_refl) as [adds [P [L [N0 H]]]]. clear IH.
      assert (Same : forall j x y, nth_error (procs w1) j = Some y -> adds_done [y] = [] -> adds_done [x] = [] -> adds_done (set_nth (procs w1) j x) = adds_done (procs w1)).
      { intros j x y E Ey Ex. destruct (set_nth_split (procs w1) j x y E) as [a [b [-> [-> _]]]]. unfold adds_done in *. rewrite !flat_map_app. cbn [flat_map] in *. rewrite app_nil_r in Ex, Ey. rewrite Ex, Ey. reflexivity. }
      inversion ST as [j q1 o1 E1 P1 Q1|j q1 o1 n1 s1 s2 E1 T1 O1 Q1|j q1 o1 n1 s1 s2 E1 T1 O1 O2 L1 Q1|j q1 o1 n1 s1 s2 E1 T1 O1 O2 Q1| |j ws E1 L1 Q1|j ws cm' E1 A' Q1]; subst;
        try (exists adds; unfold versions in *; cbn [procs history index]; rewrite (Same _ _ _ E1) by reflexivity; auto; fail).
      exists (adds ++ [ws]). unfold versions. cbn [procs history index]. fold (versions w1). split; [|split; [rewrite !app_length, L; cbn; lia|]; split].
      + destruct (set_nth_split (procs w1) j (Added ws) _ E1) as [a [b [Ea [-> _]]]]. rewrite Ea in P. unfold adds_done in *. rewrite !flat_map_app in *. cbn [flat_map app] in *. eapply Permutation_trans; [apply Permutation_sym, Permutation_cons_append|]. eapply Permutation_trans; [|apply Permutation_middle]. constructor. exact P.
      + rewrite nth_error_app1; [exact N0|lia].
      + intros i ws' E. destruct (Nat.lt_ge_cases i (length adds)) as [Li|Li].
        * rewrite nth_error_app1 in E by exact Li. destruct (H i ws' E) as [c [c' [X1 [X2 X3]]]]. exists c, c'. rewrite !nth_error_app1 by lia. auto.
        * rewrite nth_error_app2 in E by exact Li. destruct (i - length adds) as [|d] eqn:D; [|destruct d; discriminate]. injection E as <-. assert (i = length adds) by lia. subst i.
          exists (index w1), cm'. split; [|split; [|exact A']].
          -- rewrite nth_error_app1 by lia. unfold versions. rewrite nth_error_app2; [|rewrite versions_length in L; lia]. replace (length adds - length (history w1)) with 0; [reflexivity|rewrite versions_length in L; lia].
          -- rewrite nth_error_app2 by lia. replace (S (length adds) - length (versions w1)) with 0 by lia. reflexivity.
  Qed.
  (** Every call stays what it was: the one at p is waiting, under way or done. *)
  Theorem C73_calls cm calls w p : after lower cm calls w ->
    match nth_error calls p, nth_error (procs w) p with
    | Some (CallSearch q), Some (Query q') => q' = q
    | Some (CallSearch q), Some (Searching q' _ _ _) => q' = q
    | Some (CallAdd ws), Some (Adding ws') => ws' = ws
    | Some (CallAdd ws), Some (AddLocked ws') => ws' = ws
    | Some (CallAdd ws), Some (Added ws') => ws' = ws
    | None, None => True
    | _, _ => False
    end.
  Proof.
    intros [k R]. remember (begin cm calls) as w0 eqn:E0. induction R as [w|k w w1 w2 R IH ST]; subst.
    - cbn [begin procs]. rewrite nth_error_map. destruct (nth_error calls p) as [[q|ws]|]; cbn; auto.
    - specialize (IH eq_refl). inversion ST as [j q1 o1 E1 P1 Q1|j q1 o1 n1 s1 s2 E1 T1 O1 Q1|j q1 o1 n1 s1 s2 E1 T1 O1 O2 L1 Q1|j q1 o1 n1 s1 s2 E1 T1 O1 O2 Q1| |j ws E1 L1 Q1|j ws cm' E1 A' Q1]; subst; cbn [procs];
        (destruct (Nat.eq_dec p j) as [->|N]; [rewrite (set_same _ _ _ _ E1); rewrite E1 in IH; destruct (nth_error calls j) as [[|]|]; auto|rewrite set_other by exact N; exact IH]).
  Qed.
End C73.

(** ** Every mixture happens *)
Section Mix.
  Variables (lower : str -> str) (q : str) (order : list str).
  Let st (td : list str) (cl : bool) (js : list str) (rs : list (list (str * nat))) (rc : nat) (ac : list (str * nat)) (rt : bool) : State :=
    {| todo := td; closed := cl; jobs := js; workers := repeat Idle 8; owner := None; results := rs; received := rc; acc := ac; returned := rt |}.
  Let wd (h : list CM) (c : CM) (s : State) (rest : list Proc) : World := {| history := h; index := c; lock := None; procs := Searching q order 0 s :: rest |}.
  Let reach (w w' : World) : Prop := exists k, wruns lower k w w'.
  Lemma reach_step w w' w'' : reach w w' -> wstep lower w' (Some w'') -> reach w w''.
  Proof. intros [k R] ST. exists (S k). econstructor; eassumption. Qed.
  Lemma fill h c rest w : forall td js, length (js ++ td) <= length order -> reach w (wd h c (st td false js [] 0 [] false) rest) -> reach w (wd h c (st [] true (js ++ td) [] 0 [] false) rest).
  Proof.
    induction td as [|g td IH]; intros js L R.
    - rewrite app_nil_r. eapply reach_step; [exact R|]. refine (c_free lower (wd h c (st [] false js [] 0 [] false) rest) 0 q order 0 (st [] false js [] 0 [] false) (st [] true js [] 0 [] false) _ _ _); [reflexivity| |reflexivity]. apply s_close; reflexivity.
    - replace (js ++ g :: td) with ((js ++ [g]) ++ td) by (rewrite <- app_assoc; reflexivity). apply IH; [rewrite <- app_assoc; exact L|].
      eapply reach_step; [exact R|]. refine (c_free lower (wd h c (st (g :: td) false js [] 0 [] false) rest) 0 q order 0 (st (g :: td) false js [] 0 [] false) (st td false (js ++ [g]) [] 0 [] false) _ _ _); [reflexivity| |reflexivity].
      eapply s_send; [reflexivity|]. cbn [st jobs]. rewrite app_length in L. cbn in L. lia.
  Qed.
  Lemma serve h c rest w : forall gs rs, Forall2 (fun g r => work c g (Some r)) gs rs -> forall js rs0, length rs0 + length gs <= length order ->
    reach w (wd h c (st [] true (gs ++ js) rs0 0 [] false) rest) -> reach w (wd h c (st [] true js (rs0 ++ rs) 0 [] false) rest).
  Proof.
    induction 1 as [|g r gs rs W F IH]; intros js rs0 L R; [rewrite app_nil_r; exact R|]. replace (rs0 ++ r :: rs) with ((rs0 ++ [r]) ++ rs) by (rewrite <- app_assoc; reflexivity).
    cbn [length] in L. apply IH; [rewrite app_length; cbn; lia|].
    set (sx := fun (v : Worker) (o : option nat) (js : list str) (rs : list (list (str * nat))) =>
      {| todo := []; closed := true; jobs := js; workers := v :: repeat Idle 7; owner := o; results := rs; received := 0; acc := []; returned := false |}).
    set (wx := fun (l : option nat) (s : State) => {| history := h; index := c; lock := l; procs := Searching q order 0 s :: rest |}).
    change (reach w (wx None (sx Idle None (g :: gs ++ js) rs0))) in R. change (reach w (wx None (sx Idle None (gs ++ js) (rs0 ++ [r])))).
    apply reach_step with (w'' := wx None (sx (Got g) None (gs ++ js) rs0)) in R.
    2:{ refine (c_free lower (wx None (sx Idle None (g :: gs ++ js) rs0)) 0 q order 0 (sx Idle None (g :: gs ++ js) rs0) (sx (Got g) None (gs ++ js) rs0) eq_refl _ eq_refl).
        refine (w_take _ _ (sx Idle None (g :: gs ++ js) rs0) 0 g (gs ++ js) eq_refl eq_refl). }
    apply reach_step with (w'' := wx (Some 0) (sx (Locked g) (Some 0) (gs ++ js) rs0)) in R.
    2:{ refine (c_lock lower (wx None (sx (Got g) None (gs ++ js) rs0)) 0 q order 0 (sx (Got g) None (gs ++ js) rs0) (sx (Locked g) (Some 0) (gs ++ js) rs0) eq_refl _ eq_refl _ eq_refl); [|discriminate].
        refine (CmModel.w_lock _ _ (sx (Got g) None (gs ++ js) rs0) 0 g eq_refl eq_refl). }
    apply reach_step with (w'' := wx None (sx (Sending r) None (gs ++ js) rs0)) in R.
    2:{ refine (c_unlock lower (wx (Some 0) (sx (Locked g) (Some 0) (gs ++ js) rs0)) 0 q order 0 (sx (Locked g) (Some 0) (gs ++ js) rs0) (sx (Sending r) None (gs ++ js) rs0) eq_refl _ _ eq_refl); [|discriminate].
        refine (w_unlock _ _ (sx (Locked g) (Some 0) (gs ++ js) rs0) 0 g r eq_refl eq_refl W). }
    apply reach_step with (1 := R).
    refine (c_free lower (wx None (sx (Sending r) None (gs ++ js) rs0)) 0 q order 0 (sx (Sending r) None (gs ++ js) rs0) (sx Idle None (gs ++ js) (rs0 ++ [r])) eq_refl _ eq_refl).
    refine (w_send _ _ (sx (Sending r) None (gs ++ js) rs0) 0 r eq_refl _). cbn. lia.
  Qed.
  Lemma drain h c rest w : forall rs rc ac, rc + length rs = length order -> reach w (wd h c (st [] true [] rs rc ac false) rest) ->
    reach w (wd h c (st [] true [] [] (length order) (fold_left merge rs ac) true) rest).
  Proof.
    induction rs as [|r rs IH]; intros rc ac L R; cbn [length] in L.
    - rewrite Nat.add_0_r in L. subst rc. eapply reach_step; [exact R|]. refine (c_free lower (wd h c (st [] true [] [] (length order) ac false) rest) 0 q order 0 (st [] true [] [] (length order) ac false) (st [] true [] [] (length order) ac true) eq_refl _ eq_refl). apply (s_return (index (wd h c (st [] true [] [] (length order) ac false) rest)) (length order) (st [] true [] [] (length order) ac false)); reflexivity.
    - cbn [fold_left]. apply (IH (S rc)); [lia|]. eapply reach_step; [exact R|]. refine (c_free lower (wd h c (st [] true [] (r :: rs) rc ac false) rest) 0 q order 0 (st [] true [] (r :: rs) rc ac false) (st [] true [] rs (S rc) (merge ac r) false) eq_refl _ eq_refl). refine (s_receive _ _ (st [] true [] (r :: rs) rc ac false) r rs r eq_refl _ eq_refl (Permutation_refl r)). cbn. lia.
  Qed.
End Mix.
(** While one Add runs, a search may score any part of the substrings before it and the others after it. *)
Theorem C73_any_mixture lower cm ws cm' q front back rs1 rs2 :
  lists_grams (SubstringSizes cm) q (front ++ back) -> Add lower cm ws cm' ->
  Forall2 (fun g r => work cm g (Some r)) front rs1 -> Forall2 (fun g r => work cm' g (Some r)) back rs2 ->
  exists w, after lower cm [CallSearch q; CallAdd ws] w /\ versions w = [cm; cm'] /\ found w 0 q 0 (fold_left merge (rs1 ++ rs2) []).
Proof.
  intros [N G] A F1 F2. set (order := front ++ back).
  assert (P : Permutation order (splitWord (SubstringSizes cm) q)).
  { apply NoDup_Permutation; [exact N|apply splitWord_NoDup|]. intros g. rewrite splitWord_gram. apply G. }
  assert (L1 : length rs1 = length front) by (symmetry; eapply Forall2_length'; exact F1). assert (L2 : length rs2 = length back) by (symmetry; eapply Forall2_length'; exact F2).
  assert (Lo : length order = length front + length back) by apply app_length.
  assert (R0 : exists k, wruns lower k (begin cm [CallSearch q; CallAdd ws]) {| history := []; index := cm; lock := None; procs := [Searching q order 0 (start order); Adding ws] |}).
  { exists 1. econstructor; [constructor|]. apply (c_call lower (begin cm [CallSearch q; CallAdd ws]) 0 q order); [reflexivity|exact P]. }
  apply (fill lower q order [] cm [Adding ws] _ order []) in R0; [|apply le_n]. cbn [app] in R0.
  unfold order in R0 at 2. apply (serve lower q order [] cm [Adding ws] _ front rs1 F1 back []) in R0; [|cbn; lia]. cbn [app] in R0.
  eapply reach_step in R0; [|eapply (a_lock lower _ 1 ws); reflexivity].
  eapply reach_step in R0; [|eapply (a_unlock lower _ 1 ws cm'); [reflexivity|exact A]].
  cbn [history index procs set_nth app] in R0.
  rewrite <- (app_nil_r back) in R0. apply (serve lower q order [cm] cm' [Added ws] _ back rs2 F2 [] rs1) in R0; [|lia].
  apply (drain lower q order [cm] cm' [Added ws]) in R0; [|rewrite app_length; lia].
  eexists. split; [exact R0|]. split; [reflexivity|]. eexists order, _. split; [reflexivity|]. split; reflexivity.
Qed.

(** The result of a search during an Add may be neither the one before it nor the one after it: over ["ab"; "abzz"] with substrings of one
    character, the closest to "ab" is "ab", and after Add(["qqq"]) it is "qqq" (C30), but a search during the Add may answer "abzz". *)
Definition idx0 : CM := {| SubstringSizes := [1]; SubstringToID := []; ID := [] |}.
Definition idx1 : CM := add_word (add_word idx0 0 (lit "ab") (splitWord [1] (lit "ab"))) 1 (lit "abzz") (splitWord [1] (lit "abzz")).
Definition idx2 : CM := add_word idx1 0 (lit "qqq") (splitWord [1] (lit "qqq")).
Lemma Mx : forall l e x, descending (e :: l) -> In x l -> snd x <= snd e.
Proof.
  induction l as [|b l IH]; intros e x H I; [contradiction|]. destruct H as [H1 H2]. destruct I as [<-|I]; [exact H1|]. specialize (IH b x H2 I). lia.
Qed.
Lemma Closest_best cm q k0 rivals res : (forall k, total cm q k <> 0 -> k = k0 \/ In k rivals) -> Forall (fun k => total cm q k < total cm q k0) rivals -> Closest cm q res -> total cm q k0 <> 0 -> res = k0.
Proof.
  intros Dom F [m [pl [M [[P D] ->]]]] Nz. destruct (match_total _ _ _ M) as [Pm [V _]].
  assert (I0 : In (k0, total cm q k0) m) by (apply posmap_in; [exact Pm|split; [apply V|lia]]).
  apply (Permutation_in _ (Permutation_sym P)) in I0. destruct pl as [|[k v] pl]; [contradiction|].
  assert (I : In (k, v) m) by (apply (Permutation_in _ P); left; reflexivity). apply (posmap_in _ _ _ Pm) in I. destruct I as [Ev Pv]. rewrite V in Ev.
  destruct (Dom k) as [E|E]; [lia|exact E|]. exfalso. rewrite Forall_forall in F. specialize (F k E).
  destruct I0 as [I0|I0]; [injection I0 as -> _; lia|]. pose proof (Mx pl (k, v) _ D I0) as L. cbn in L. lia.
Qed.
Lemma total_dom cm q k : total cm q k <> 0 -> exists g x, In g (splitWord (SubstringSizes cm) q) /\ In x (subids (SubstringToID cm) g) /\ k = key_of cm x.
Proof.
  unfold total. induction (splitWord (SubstringSizes cm) q) as [|g gs IH]; [intros H; contradiction H; reflexivity|]. rewrite sum_cons. intros H.
  destruct (Nat.eq_dec (contrib cm g k) 0) as [E|E]; [destruct IH as [g' [x [I J]]]; [lia|exists g', x; split; [right; exact I|exact J]]|].
  rewrite contrib_sub in E. assert (X : exists x, In x (subids (SubstringToID cm) g) /\ k = key_of cm x).
  { clear - E. revert E. generalize (term k (1000 / length (subids (SubstringToID cm) g))). intros t. induction (subids (SubstringToID cm) g) as [|x l IH]; intros E; [contradiction E; reflexivity|]. rewrite sum_cons in E.
    destruct (str_dec k (key_of cm x)) as [->|N]; [exists x; split; [left; reflexivity|reflexivity]|]. destruct IH as [y [I J]]; [exact E|]. exists y. split; [right; exact I|exact J]. }
  destruct X as [x [I J]]. exists g, x. split; [left; reflexivity|auto].
Qed.
Theorem C73_neither_refuted : exists words ws q cm cm',
  New ascii_lower words [1] cm /\ Add ascii_lower cm ws cm' /\
  (forall res, Closest cm q res -> res = lit "ab") /\ (forall res, Closest cm' q res -> res = lit "qqq") /\
  exists w m, after ascii_lower cm [CallSearch q; CallAdd ws] w /\ found w 0 q 0 m /\
    forall pl, rankByWordCount m pl -> exists v rest, pl = (lit "abzz", v) :: rest.
Proof.
  exists [lit "ab"; lit "abzz"], [lit "qqq"], (lit "ab"), idx1, idx2.
  assert (A1 : New ascii_lower [lit "ab"; lit "abzz"] [1] idx1).
  { econstructor; [apply Permutation_refl|]. econstructor; [apply Permutation_refl|]. constructor. }
  assert (A2 : Add ascii_lower idx1 [lit "qqq"] idx2) by (econstructor; [apply Permutation_refl|constructor]).
  split; [exact A1|]. split; [exact A2|]. split; [|split].
  - intros res C. apply (Closest_best idx1 (lit "ab") (lit "ab") [lit "abzz"]); [|constructor; [apply Nat.ltb_lt; vm_compute; reflexivity|constructor]|exact C|vm_compute; discriminate].
    intros k Hk. apply total_dom in Hk. destruct Hk as [g [x [I [J ->]]]]. vm_compute in I. destruct I as [<-|[<-|[]]]; vm_compute in J; destruct J as [<-|[<-|[]]]; vm_compute; auto.
  - intros res C. apply (Closest_best idx2 (lit "ab") (lit "qqq") [lit "abzz"]); [|constructor; [apply Nat.ltb_lt; vm_compute; reflexivity|constructor]|exact C|vm_compute; discriminate].
    intros k Hk. apply total_dom in Hk. destruct Hk as [g [x [I [J ->]]]]. vm_compute in I. destruct I as [<-|[<-|[]]]; vm_compute in J; destruct J as [<-|[<-|[]]]; vm_compute; auto.
  - destruct (C73_any_mixture ascii_lower idx1 [lit "qqq"] idx2 (lit "ab") [lit "a"] [lit "b"] [[(lit "ab", 1001); (lit "abzz", 751)]] [[(lit "qqq", 834); (lit "abzz", 751)]]) as [w [Af [_ Fd]]].
    + change ([lit "a"] ++ [lit "b"]) with (splitWord (SubstringSizes idx1) (lit "ab")). apply splitWord_lists.
    + exact A2.
    + constructor; [|constructor]. refine (work_ids idx1 (lit "a") [0%N; 1%N] [0%N; 1%N] _ _ _); [vm_compute; reflexivity|discriminate|apply Permutation_refl].
    + constructor; [|constructor]. refine (work_ids idx2 (lit "b") [0%N; 1%N] [0%N; 1%N] _ _ _); [vm_compute; reflexivity|discriminate|apply Permutation_refl].
    + exists w, [(lit "ab", 1001); (lit "abzz", 1502); (lit "qqq", 834)]. split; [exact Af|]. split; [exact Fd|]. intros pl [P D].
      assert (I : In (lit "abzz", 1502) pl) by (apply (Permutation_in _ (Permutation_sym P)); right; left; reflexivity).
      destruct pl as [|[k v] pl]; [contradiction|]. assert (J : In (k, v) [(lit "ab", 1001); (lit "abzz", 1502); (lit "qqq", 834)]) by (apply (Permutation_in _ P); left; reflexivity).
      destruct J as [J|[J|[J|[]]]]; injection J as <- <-; [exfalso|eauto|exfalso]; (destruct I as [I|I]; [discriminate|]; pose proof (Mx _ _ _ D I) as L; cbn in L; lia).
Qed.
(** The order of two Adds matters: both give the same numbers to their words (C30). *)
Theorem C73_adds_order_refuted : exists cm w1 w2, New ascii_lower [] [2] cm /\
  after ascii_lower cm [CallAdd [lit "ab"]; CallAdd [lit "cd"]] w1 /\ after ascii_lower cm [CallAdd [lit "ab"]; CallAdd [lit "cd"]] w2 /\
  procs w1 = [Added [lit "ab"]; Added [lit "cd"]] /\ procs w2 = [Added [lit "ab"]; Added [lit "cd"]] /\
  (forall res, Closest (index w1) (lit "ab") res -> res = lit "cd") /\ (forall res, Closest (index w2) (lit "ab") res -> res = lit "ab").
Proof.
  set (cm := {| SubstringSizes := [2]; SubstringToID := []; ID := [] |}). set (ab := [lit "ab"]). set (cd := [lit "cd"]).
  set (ca := add_word cm 0 (lit "ab") ab). set (cc := add_word cm 0 (lit "cd") cd). set (cac := add_word ca 0 (lit "cd") cd). set (cca := add_word cc 0 (lit "ab") ab).
  exists cm, {| history := [cm; ca]; index := cac; lock := None; procs := [Added ab; Added cd] |}, {| history := [cm; cc]; index := cca; lock := None; procs := [Added ab; Added cd] |}.
  split; [constructor|]. split; [|split; [|split; [reflexivity|split; [reflexivity|split]]]].
  - exists 4. eapply wrunsS; [eapply wrunsS; [eapply wrunsS; [eapply wrunsS; [apply wruns0|]|]|]|].
    + refine (a_lock ascii_lower (begin cm [CallAdd ab; CallAdd cd]) 0 ab eq_refl eq_refl).
    + refine (a_unlock ascii_lower {| history := []; index := cm; lock := Some 0; procs := [AddLocked ab; Adding cd] |} 0 ab ca eq_refl _). econstructor; [apply Permutation_refl|constructor].
    + refine (a_lock ascii_lower {| history := [cm]; index := ca; lock := None; procs := [Added ab; Adding cd] |} 1 cd eq_refl eq_refl).
    + refine (a_unlock ascii_lower {| history := [cm]; index := ca; lock := Some 1; procs := [Added ab; AddLocked cd] |} 1 cd cac eq_refl _). econstructor; [apply Permutation_refl|constructor].
  - exists 4. eapply wrunsS; [eapply wrunsS; [eapply wrunsS; [eapply wrunsS; [apply wruns0|]|]|]|].
    + refine (a_lock ascii_lower (begin cm [CallAdd ab; CallAdd cd]) 1 cd eq_refl eq_refl).
    + refine (a_unlock ascii_lower {| history := []; index := cm; lock := Some 1; procs := [Adding ab; AddLocked cd] |} 1 cd cc eq_refl _). econstructor; [apply Permutation_refl|constructor].
    + refine (a_lock ascii_lower {| history := [cm]; index := cc; lock := None; procs := [Adding ab; Added cd] |} 0 ab eq_refl eq_refl).
    + refine (a_unlock ascii_lower {| history := [cm]; index := cc; lock := Some 0; procs := [AddLocked ab; Added cd] |} 0 ab cca eq_refl _). econstructor; [apply Permutation_refl|constructor].
  - cbn [index]. intros res C. apply (Closest_best cac (lit "ab") (lit "cd") []); [|constructor|exact C|vm_compute; discriminate].
    intros k Hk. apply total_dom in Hk. destruct Hk as [g [x [I [J ->]]]]. vm_compute in I. destruct I as [<-|[]]. vm_compute in J. destruct J as [<-|[]]. vm_compute. auto.
  - cbn [index]. intros res C. apply (Closest_best cca (lit "ab") (lit "ab") []); [|constructor|exact C|vm_compute; discriminate].
    intros k Hk. apply total_dom in Hk. destruct Hk as [g [x [I [J ->]]]]. vm_compute in I. destruct I as [<-|[]]. vm_compute in J. destruct J as [<-|[]]. vm_compute. auto.
Qed.

(** ** The hypotheses are met *)
(** A search and an Add really overlap (C73_mixture, C73_starts_from), and the search scores "ab" in the old and "lm" in the new index. *)
Example ex_overlap : exists cm cm' w m, New ascii_lower [lit "xab"; lit "bar"] [2] cm /\ Add ascii_lower cm [lit "almond"] cm' /\ after ascii_lower cm [CallSearch (lit "ablm"); CallAdd [lit "almond"]] w /\
  versions w = [cm; cm'] /\ found w 0 (lit "ablm") 0 m /\ In (lit "xab", 1334) m /\ exists v, In (lit "almond", v) m.
Proof.
  set (cm := add_word (add_word {| SubstringSizes := [2]; SubstringToID := []; ID := [] |} 0 (lit "xab") (splitWord [2] (lit "xab"))) 1 (lit "bar") (splitWord [2] (lit "bar"))).
  set (cm' := add_word cm 0 (lit "almond") (splitWord [2] (lit "almond"))).
  assert (A : Add ascii_lower cm [lit "almond"] cm') by (econstructor; [apply Permutation_refl|constructor]).
  destruct (C73_any_mixture ascii_lower cm [lit "almond"] cm' (lit "ablm") [lit "ab"; lit "bl"] [lit "lm"] [[(lit "xab", 1334)]; []] [[(lit "almond", 1167)]]) as [w [Af [Vs Fd]]].
  - change ([lit "ab"; lit "bl"] ++ [lit "lm"]) with (splitWord (SubstringSizes cm) (lit "ablm")). apply splitWord_lists.
  - exact A.
  - constructor; [|constructor; [apply work_absent; vm_compute; reflexivity|constructor]]. refine (work_ids cm (lit "ab") [0%N] [0%N] _ _ _); [vm_compute; reflexivity|discriminate|apply Permutation_refl].
  - constructor; [|constructor]. refine (work_ids cm' (lit "lm") [0%N] [0%N] _ _ _); [vm_compute; reflexivity|discriminate|apply Permutation_refl].
  - exists cm, cm', w. eexists. split; [econstructor; [apply Permutation_refl|econstructor; [apply Permutation_refl|constructor]]|]. split; [exact A|]. split; [exact Af|]. split; [exact Vs|]. split; [exact Fd|]. vm_compute. split; [left; reflexivity|]. eexists. right. left. reflexivity.
Qed.
(** A search alone is undisturbed. *)
Example ex_undisturbed : exists w m, after ascii_lower idx1 [CallSearch (lit "a")] w /\ found w 0 (lit "a") (length (history w)) m.
Proof.
  assert (R : exists k, wruns ascii_lower k (begin idx1 [CallSearch (lit "a")]) {| history := []; index := idx1; lock := None; procs := [Searching (lit "a") [lit "a"] 0 (start [lit "a"])] |}).
  { exists 1. econstructor; [constructor|]. refine (c_call ascii_lower (begin idx1 [CallSearch (lit "a")]) 0 (lit "a") [lit "a"] eq_refl _). apply Permutation_refl. }
  apply (fill ascii_lower (lit "a") [lit "a"] [] idx1 [] _ [lit "a"] []) in R; [|apply le_n]. cbn [app] in R.
  apply (serve ascii_lower (lit "a") [lit "a"] [] idx1 [] _ [lit "a"] [[(lit "ab", 1001); (lit "abzz", 751)]]) with (js := []) (rs0 := []) in R; [| |cbn; lia].
  - apply (drain ascii_lower (lit "a") [lit "a"] [] idx1 []) in R; [|reflexivity]. eexists. eexists. split; [exact R|]. eexists [lit "a"], _. split; [reflexivity|]. split; reflexivity.
  - constructor; [|constructor]. refine (work_ids idx1 (lit "a") [0%N; 1%N] [0%N; 1%N] _ _ _); [vm_compute; reflexivity|discriminate|apply Permutation_refl].
Qed.
(** With an empty word a schedule crashes. *)
Example ex_conc_crash : exists cm w, New ascii_lower [lit "a"] [2] cm /\ after ascii_lower cm [CallAdd [[]]; CallSearch []] w /\ crashes (index w) [] /\ nth_error (procs w) 1 = Some (Query []).
Proof.
  set (cm := add_word {| SubstringSizes := [2]; SubstringToID := []; ID := [] |} 0 (lit "a") [lit "a"]). set (cm' := add_word cm 0 [] [[]]).
  exists cm, {| history := [cm]; index := cm'; lock := None; procs := [Added [[]]; Query []] |}. split; [econstructor; [apply Permutation_refl|constructor]|]. split; [|split; [|reflexivity]].
  - exists 2. eapply wrunsS; [eapply wrunsS; [apply wruns0|]|].
    + refine (a_lock ascii_lower (begin cm [CallAdd [[]]; CallSearch []]) 0 [[]] eq_refl eq_refl).
    + refine (a_unlock ascii_lower {| history := []; index := cm; lock := Some 0; procs := [AddLocked [[]]; Query []] |} 0 [[]] cm' eq_refl _). econstructor; [apply Permutation_refl|constructor].
  - apply crash_bad. exists []. split; [left; reflexivity|]. exists [0%N]. split; [vm_compute; reflexivity|]. right. exists 0%N. split; [left; reflexivity|vm_compute; reflexivity].
Qed.

Print Assumptions C73_mixture.
Print Assumptions C73_starts_from.
Print Assumptions C73_undisturbed.
Print Assumptions C73_every_schedule_ends.
Print Assumptions C73_no_deadlock.
Print Assumptions C73_mutual_exclusion.
Print Assumptions C73_crash.
Print Assumptions C73_no_crash.
Print Assumptions C73_adds.
Print Assumptions C73_calls.
Print Assumptions C73_any_mixture.
Print Assumptions C73_neither_refuted.
Print Assumptions C73_adds_order_refuted.
