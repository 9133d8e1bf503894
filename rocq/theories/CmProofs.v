(** * Proofs about the worker pool of closestmatch. *)
From Coq Require Import String.
From Coq Require Import ZArith NArith Arith List Bool Lia Permutation.
From Verif Require Import Utf8 GoStr CmModel.
Import ListNotations.
Open Scope nat_scope.

(** ** Maps *)
Section MapFacts.
  Context {K V : Type} (dec : forall a b : K, {a = b} + {a <> b}).
  Lemma get_put (m : list (K * V)) k v k' : get dec (put dec m k v) k' = if dec k' k then Some v else get dec m k'.
  Proof.
    induction m as [|[a b] m IH]; cbn [put get]; [reflexivity|]. destruct (dec k a) as [<-|N]; cbn [get].
    - destruct (dec k' k) as [->|]; reflexivity.
    - rewrite IH. destruct (dec k' a) as [->|]; [|reflexivity]. destruct (dec a k); [congruence|reflexivity].
  Qed.
  Lemma get_in (m : list (K * V)) k v : NoDup (map fst m) -> (get dec m k = Some v <-> In (k, v) m).
  Proof.
    induction m as [|[a b] m IH]; intros N; cbn [get map fst In] in *; [split; [discriminate|tauto]|]. inversion N as [|? ? N1 N2]; subst.
    destruct (dec k a) as [->|Ne].
    - split; [intros E; injection E as ->; left; reflexivity|]. intros [E|I]; [injection E as ->; reflexivity|]. exfalso. apply N1. apply (in_map fst) in I. exact I.
    - rewrite IH by assumption. split; [auto|]. intros [E|I]; [congruence|exact I].
  Qed.
  Lemma get_none (m : list (K * V)) k : get dec m k = None <-> ~ In k (map fst m).
  Proof.
    induction m as [|[a b] m IH]; cbn [get map fst In]; [tauto|]. destruct (dec k a) as [->|Ne]; [split; [discriminate|tauto]|]. rewrite IH. intuition congruence.
  Qed.
  Lemma put_keys (m : list (K * V)) k v x : In x (map fst (put dec m k v)) <-> x = k \/ In x (map fst m).
  Proof.
    induction m as [|[a b] m IH]; cbn [put map fst In]; [intuition congruence|]. destruct (dec k a) as [->|Ne]; cbn [map fst In]; [intuition congruence|]. rewrite IH. tauto.
  Qed.
  Lemma put_nodup (m : list (K * V)) k v : NoDup (map fst m) -> NoDup (map fst (put dec m k v)).
  Proof.
    induction m as [|[a b] m IH]; cbn [put map fst]; intros N; [repeat constructor; tauto|]. inversion N as [|? ? N1 N2]; subst.
    destruct (dec k a) as [->|Ne]; cbn [map fst]; constructor; auto. intros X. apply put_keys in X. destruct X as [->|X]; auto.
  Qed.
End MapFacts.

(** Values, 0 for an absent key. *)
Definition val (m : list (str * nat)) (k : str) : nat := match get str_dec m k with Some v => v | None => 0 end.
Definition posmap (m : list (str * nat)) : Prop := NoDup (map fst m) /\ Forall (fun e => 0 < snd e) m.
Lemma put_forall (P : str * nat -> Prop) m k v : Forall P m -> P (k, v) -> Forall P (put str_dec m k v).
Proof.
  intros F Pv. induction F as [|[a b] m Pa F IH]; cbn [put]; [auto|]. destruct (str_dec k a) as [->|]; constructor; auto.
Qed.
Lemma posmap_bump m k v : posmap m -> 0 < v -> posmap (bump m k v).
Proof. intros [N F] H. split; [apply put_nodup; exact N|]. apply put_forall; [exact F|]. cbn. lia. Qed.
Lemma val_bump m k v k' : val (bump m k v) k' = val m k' + (if str_dec k' k then v else 0).
Proof. unfold val, bump. rewrite get_put. destruct (str_dec k' k) as [->|]; [reflexivity|lia]. Qed.
Lemma posmap_in m k v : posmap m -> (In (k, v) m <-> val m k = v /\ 0 < v).
Proof.
  intros [N F]. unfold val. rewrite <- (get_in str_dec) by exact N. destruct (get str_dec m k) as [x|] eqn:E.
  - assert (0 < x) by (rewrite (get_in str_dec) in E by exact N; rewrite Forall_forall in F; exact (F _ E)). split; [intros X; injection X as ->; auto|]. intros [-> _]. reflexivity.
  - split; [discriminate|]. intros [<- H]. lia.
Qed.
Lemma posmap_perm m m' : Permutation m m' -> posmap m -> posmap m'.
Proof. intros P [N F]. split; [exact (Permutation_NoDup (Permutation_map fst P) N)|]. exact (Permutation_Forall P F). Qed.
Lemma val_perm m m' k : Permutation m m' -> posmap m -> val m' k = val m k.
Proof.
  intros P G. pose proof (posmap_perm _ _ P G) as G'. destruct (val m k) as [|v] eqn:E.
  - destruct (val m' k) as [|v'] eqn:E'; [reflexivity|exfalso]. assert (I : In (k, S v') m') by (apply posmap_in; [exact G'|split; [exact E'|lia]]).
    apply (Permutation_in _ (Permutation_sym P)) in I. apply posmap_in in I; [|exact G]. lia.
  - assert (I : In (k, S v) m) by (apply posmap_in; [exact G|split; [exact E|lia]]). apply (Permutation_in _ P) in I. apply posmap_in in I; [|exact G']. tauto.
Qed.
Lemma posmap_merge e : forall m, posmap m -> Forall (fun x => 0 < snd x) e -> posmap (merge m e).
Proof.
  induction e as [|[k v] e IH]; intros m G F; [exact G|]. inversion F; subst. unfold merge. cbn [fold_left fst snd]. apply IH; [apply posmap_bump; assumption|assumption].
Qed.
Lemma val_merge e : forall m k, NoDup (map fst e) -> val (merge m e) k = val m k + val e k.
Proof.
  induction e as [|[a v] e IH]; intros m k N; [unfold merge, val at 3; cbn; lia|]. cbn [map fst] in N. inversion N as [|? ? N1 N2]; subst.
  unfold merge. cbn [fold_left fst snd]. fold (merge (bump m a v) e). rewrite IH by assumption. rewrite val_bump. unfold val at 4. cbn [get].
  destruct (str_dec k a) as [->|]; [|fold (val e k); lia]. unfold val at 2. apply (get_none str_dec) in N1. rewrite N1. lia.
Qed.

Definition sum {A} (f : A -> nat) (l : list A) : nat := list_sum (map f l).
Lemma sum_perm {A} (f : A -> nat) l l' : Permutation l l' -> sum f l = sum f l'.
Proof.
  unfold sum. assert (C : forall a l, list_sum (a :: l) = a + list_sum l) by reflexivity.
  induction 1; cbn [map]; rewrite ?C; lia.
Qed.
Lemma sum_app {A} (f : A -> nat) l l' : sum f (l ++ l') = sum f l + sum f l'.
Proof. unfold sum. rewrite map_app, list_sum_app. reflexivity. Qed.
Lemma sum_cons {A} (f : A -> nat) a l : sum f (a :: l) = f a + sum f l.
Proof. reflexivity. Qed.
Lemma sum_ext {A} (f g : A -> nat) l : (forall a, In a l -> f a = g a) -> sum f l = sum g l.
Proof. induction l as [|a l IH]; intros H; [reflexivity|]. rewrite !sum_cons, (H a) by (left; reflexivity). rewrite IH; [reflexivity|]. intros b Hb. apply H. right. exact Hb. Qed.

(** ** One job *)
Definition term (k : str) (weight : nat) : nat := 1 + 1000 / length k + weight.
(** What substring g adds to key k. *)
Definition contrib (cm : CM) (g k : str) : nat :=
  match get str_dec (SubstringToID cm) g with
  | None => 0
  | Some ids => sum (fun id => if str_dec k (key_of cm id) then term k (1000 / length ids) else 0) ids
  end.
Lemma score_ids_ok cm w order : forall m r, posmap m -> score_ids cm w order m = Some r ->
  posmap r /\ forall k, val r k = val m k + sum (fun id => if str_dec k (key_of cm id) then term k w else 0) order.
Proof.
  induction order as [|id order IH]; intros m r G E; cbn [score_ids] in E.
  - injection E as <-. split; [exact G|]. intros k. unfold sum. cbn. lia.
  - destruct (length (key_of cm id)) as [|n] eqn:L; [discriminate|].
    destruct (IH _ _ (posmap_bump m (key_of cm id) (1 + 1000 / S n + w) G ltac:(lia)) E) as [G' V]. split; [exact G'|].
    intros k. rewrite V, val_bump, sum_cons. destruct (str_dec k (key_of cm id)) as [->|]; [|lia]. unfold term. rewrite L. lia.
Qed.
Lemma score_ids_none cm w order : forall m, score_ids cm w order m = None <-> exists id, In id order /\ key_of cm id = [].
Proof.
  induction order as [|id order IH]; intros m; cbn [score_ids In].
  - split; [discriminate|]. intros [id [[] _]].
  - destruct (key_of cm id) as [|c t] eqn:E; cbn [length].
    + split; [intros _; exists id; auto|reflexivity].
    + rewrite IH. split; [intros [i [H1 H2]]; exists i; auto|]. intros [i [[<-|H1] H2]]; [congruence|exists i; auto].
Qed.
(** Whether a job makes its worker panic. *)
Definition bad (cm : CM) (g : str) : Prop :=
  exists ids, get str_dec (SubstringToID cm) g = Some ids /\ (ids = [] \/ exists id, In id ids /\ key_of cm id = []).
Lemma work_good cm g r : work cm g (Some r) -> ~ bad cm g.
Proof.
  intros W [ids' [E' B]]. inversion W as [E|E|ids order E NE P]; subst; rewrite E in E'; [discriminate|]. injection E' as <-.
  destruct B as [B|[id [B1 B2]]]; [contradiction|]. apply (Permutation_in _ (Permutation_sym P)) in B1.
  assert (X : score_ids cm (1000 / length ids) order [] = None) by (apply score_ids_none; exists id; auto). congruence.
Qed.
Definition result_of (cm : CM) (g : str) (r : list (str * nat)) : Prop := posmap r /\ (forall k, val r k = contrib cm g k) /\ ~ bad cm g.
Lemma work_ok cm g r : work cm g (Some r) -> result_of cm g r.
Proof.
  intros W. pose proof (work_good cm g r W) as GB. enough (posmap r /\ forall k, val r k = contrib cm g k) by (unfold result_of; tauto). clear GB. unfold contrib. inversion W as [E|E|ids order E NE P]; subst; rewrite E.
  - split; [split; constructor|]. reflexivity.
  - match goal with H : score_ids _ _ _ _ = Some _ |- _ => rename H into SI end. apply score_ids_ok in SI; [|split; constructor]. destruct SI as [G V]. split; [exact G|].
    intros k. rewrite V. unfold val at 1. cbn [get]. rewrite Nat.add_0_l. apply sum_perm. exact P.
Qed.
Lemma work_panic cm g : work cm g None -> bad cm g.
Proof.
  intros W. inversion W as [E|E|ids order E NE P]; subst.
  - exists []. auto.
  - match goal with H : score_ids _ _ _ _ = None |- _ => rename H into SI end. apply score_ids_none in SI. destruct SI as [id [H1 H2]]. exists ids. split; [exact E|]. right. exists id. split; [exact (Permutation_in _ P H1)|exact H2].
Qed.
Lemma work_total cm g : exists o, work cm g o /\ (o = None <-> bad cm g).
Proof.
  destruct (get str_dec (SubstringToID cm) g) as [ids|] eqn:E.
  - destruct ids as [|i ids].
    + exists None. split; [apply work_none; exact E|]. split; [intros _; exists []; auto|reflexivity].
    + exists (score_ids cm (1000 / length (i :: ids)) (i :: ids) []). split; [apply (work_ids cm g (i :: ids)); [exact E|discriminate|reflexivity]|].
      rewrite score_ids_none. unfold bad. rewrite E. split.
      * intros [id [H1 H2]]. exists (i :: ids). split; [reflexivity|]. right. exists id. auto.
      * intros [l [H [H1|H1]]]; injection H as <-; [discriminate|exact H1].
  - exists (Some []). split; [apply work_absent; exact E|]. split; [discriminate|]. intros [ids [H _]]. congruence.
Qed.

(** ** The pool *)
Lemma set_nth_nth {A} (l : list A) : forall i x j, nth_error (set_nth l i x) j = if j =? i then (match nth_error l i with Some _ => Some x | None => None end) else nth_error l j.
Proof.
  induction l as [|a l IH]; intros i x j; cbn [set_nth].
  - destruct i, j; cbn; try reflexivity. destruct (j =? i); reflexivity.
  - destruct i as [|i], j as [|j]; cbn [nth_error Nat.eqb]; try reflexivity. apply IH.
Qed.
Lemma set_nth_split {A} (l : list A) : forall i x y, nth_error l i = Some y -> exists a b, l = a ++ y :: b /\ set_nth l i x = a ++ x :: b /\ length a = i.
Proof.
  induction l as [|c l IH]; intros [|i] x y E; cbn in E; try discriminate.
  - injection E as ->. exists [], l. auto.
  - destruct (IH i x y E) as [a [b [-> [E2 L]]]]. exists (c :: a), b. cbn. rewrite E2, L. auto.
Qed.
Inductive wpend (cm : CM) : Worker -> list str -> Prop :=
  | p_idle : wpend cm Idle []
  | p_got g : wpend cm (Got g) [g]
  | p_locked g : wpend cm (Locked g) [g]
  | p_sending g r : result_of cm g r -> wpend cm (Sending r) [g]
  | p_ended : wpend cm Ended [].
Record Inv (cm : CM) (order : list str) (s : State) : Prop := {
  inv_grams : exists wl gs seen,
      Permutation order (todo s ++ jobs s ++ concat wl ++ gs ++ seen)
      /\ Forall2 (wpend cm) (workers s) wl /\ Forall2 (result_of cm) gs (results s)
      /\ length seen = received s
      /\ posmap (acc s) /\ (forall k, val (acc s) k = sum (fun g => contrib cm g k) seen) /\ Forall (fun g => ~ bad cm g) seen;
  inv_closed : closed s = true -> todo s = [];
  inv_ended : In Ended (workers s) -> jobs s = [] /\ closed s = true;
  inv_owner : forall i g, nth_error (workers s) i = Some (Locked g) -> owner s = Some i;
  inv_owner2 : forall i, owner s = Some i -> exists g, nth_error (workers s) i = Some (Locked g);
  inv_workers : workers s <> [];
  inv_recv : received s <> 0 -> closed s = true;
  inv_ret : returned s = true -> received s = length order }.

Lemma Inv_start cm order : Inv cm order (start order).
Proof.
  constructor; cbn [start todo closed jobs workers owner results received acc returned]; try discriminate; try congruence.
  - exists (repeat [] 8), [], []. split; [cbn; rewrite !app_nil_r; reflexivity|]. split; [cbn; repeat constructor|]. split; [constructor|]. split; [reflexivity|]. split; [split; constructor|]. split; [reflexivity|constructor].
  - intros H. cbn in H. intuition discriminate.
  - intros i g H. apply nth_error_In in H. cbn in H. intuition discriminate.
Qed.
Lemma pend_change cm ws wl i w w' p' : Forall2 (wpend cm) ws wl -> nth_error ws i = Some w -> wpend cm w' p' ->
  exists a p b, wl = a ++ p :: b /\ wpend cm w p /\ Forall2 (wpend cm) (set_nth ws i w') (a ++ p' :: b).
Proof.
  intros F. revert i. induction F as [|x y ws wl P F IH]; intros i E W; [destruct i; discriminate|]. destruct i as [|i]; cbn in E.
  - injection E as ->. exists [], y, wl. cbn. auto.
  - destruct (IH i E W) as [a [p [b [-> [H1 H2]]]]]. exists (y :: a), p, b. cbn. auto.
Qed.
Lemma set_nth_in {A} (l : list A) i x z : In z (set_nth l i x) -> z = x \/ In z l.
Proof.
  revert i. induction l as [|a l IH]; intros [|i] H; cbn in *; try tauto.
  - destruct H as [->|H]; auto.
  - destruct H as [->|H]; [auto|]. apply IH in H. tauto.
Qed.
Lemma set_nth_nil {A} (l : list A) i x : l <> [] -> set_nth l i x <> [].
Proof. destruct l, i; cbn; congruence. Qed.
Lemma perm_mid {A} (a b c : list A) x : Permutation (a ++ x :: b ++ c) (a ++ b ++ x :: c).
Proof. apply Permutation_app_head. apply Permutation_middle. Qed.

Ltac permc := apply (Permutation_count_occ str_dec); intros xx;
  repeat (progress (rewrite ?concat_app, ?count_occ_app; cbn [count_occ concat app]));
  repeat match goal with |- context [str_dec ?a ?b] => destruct (str_dec a b) end; lia.
Lemma Inv_step cm order s s' : Inv cm order s -> step cm (length order) s (Run s') -> Inv cm order s'.
Proof.
  intros I ST. pose proof I as [[wl [gs [seen [P [Fw [Fr [Ls [Ga [Va Gb]]]]]]]]] Ic Ie Io Io2 Iw Irc Irt].
  inversion ST as [g t H H0 E0|H H0 E0|r rs entries H H0 H1 H2 E0|H H0 H1 E0|i g js H H0 E0|i H H0 H1 E0|i g H H0 E0|i g r H H0 H1 E0|i g H H0 H1 E0|i r H H0 E0]; subst; clear ST; constructor; cbn [todo closed jobs workers owner results received acc returned]; auto; try discriminate.
  (* send *)
  - exists wl, gs, seen. split; [|auto 9]. rewrite P, H. permc.
  - intros C. apply Ic in C. congruence.
  - intros E. apply Ie in E. destruct E as [_ C]. apply Ic in C. congruence.
  (* close *)
  - exists wl, gs, seen. rewrite H in P. auto 9.
  - intros E. apply Ie in E. tauto.
  (* receive *)
  - destruct gs as [|g gs]; [rewrite H1 in Fr; inversion Fr|]. rewrite H1 in Fr. inversion Fr as [|? ? ? ? R1 R2]; subst. exists wl, gs, (g :: seen).
    split; [rewrite P; permc|]. split; [exact Fw|]. split; [exact R2|]. split; [cbn; lia|].
    destruct R1 as [G1 [V1 B1]]. pose proof (posmap_perm _ _ (Permutation_sym H2) G1) as G2. split; [apply posmap_merge; [exact Ga|apply G2]|].
    split; [|constructor; assumption]. intros k. rewrite val_merge by apply G2. rewrite Va, sum_cons. rewrite (val_perm r entries) by (auto using Permutation_sym). rewrite V1. lia.
  - intros E. apply Ie in E. tauto.
  - intros R. apply Irt in R. lia.
  (* return *)
  - exists wl, gs, seen. auto 9.
  - intros E. apply Ie in E. tauto.
  (* take *)
  - destruct (pend_change cm _ _ i Idle (Got g) [g] Fw H (p_got cm g)) as [a [p [b [-> [W1 W2]]]]]. inversion W1; subst. exists (a ++ [g] :: b), gs, seen.
    split; [|auto 9]. rewrite P, H0. permc.
  - intros E. apply set_nth_in in E. destruct E as [E|E]; [discriminate|]. apply Ie in E. destruct E as [E _]. congruence.
  - intros j g' E. rewrite set_nth_nth in E. destruct (Nat.eqb_spec j i) as [->|]; [rewrite H in E; discriminate|]. eapply Io. exact E.
  - intros j E. destruct (Io2 j E) as [g' E']. exists g'. rewrite set_nth_nth. destruct (Nat.eqb_spec j i) as [->|]; [congruence|exact E'].
  - apply set_nth_nil. exact Iw.
  (* end *)
  - destruct (pend_change cm _ _ i Idle Ended [] Fw H (p_ended cm)) as [a [p [b [-> [W1 W2]]]]]. inversion W1; subst. exists (a ++ [] :: b), gs, seen.
    split; [rewrite P, H0; reflexivity|auto 9].
  - intros j g' E. rewrite set_nth_nth in E. destruct (Nat.eqb_spec j i) as [->|]; [rewrite H in E; discriminate|]. eapply Io. exact E.
  - intros j E. destruct (Io2 j E) as [g' E']. exists g'. rewrite set_nth_nth. destruct (Nat.eqb_spec j i) as [->|]; [congruence|exact E'].
  - apply set_nth_nil. exact Iw.
  (* lock *)
  - destruct (pend_change cm _ _ i (Got g) (Locked g) [g] Fw H (p_locked cm g)) as [a [p [b [-> [W1 W2]]]]]. inversion W1; subst. exists (a ++ [g] :: b), gs, seen. auto 9.
  - intros E. apply set_nth_in in E. destruct E as [E|E]; [discriminate|]. apply Ie. exact E.
  - intros j g' E. rewrite set_nth_nth in E. destruct (Nat.eqb_spec j i) as [->|]; [reflexivity|]. apply Io in E. congruence.
  - intros j E. injection E as <-. exists g. rewrite set_nth_nth, Nat.eqb_refl, H. reflexivity.
  - apply set_nth_nil. exact Iw.
  (* unlock *)
  - destruct (pend_change cm _ _ i (Locked g) (Sending r) [g] Fw H (p_sending cm g r (work_ok _ _ _ H1))) as [a [p [b [-> [W1 W2]]]]]. inversion W1; subst. exists (a ++ [g] :: b), gs, seen. auto 9.
  - intros E. apply set_nth_in in E. destruct E as [E|E]; [discriminate|]. apply Ie. exact E.
  - intros j g' E. rewrite set_nth_nth in E. destruct (Nat.eqb_spec j i) as [->|Ne]; [rewrite H in E; discriminate|]. apply Io in E. congruence.
  - apply set_nth_nil. exact Iw.
  (* send result *)
  - destruct (pend_change cm _ _ i (Sending r) Idle [] Fw H (p_idle cm)) as [a [p [b [-> [W1 W2]]]]]. inversion W1 as [| | |g r' R|]; subst. exists (a ++ [] :: b), (gs ++ [g]), seen.
    split; [|split; [exact W2|split; [apply Forall2_app; [exact Fr|constructor; [exact R|constructor]]|auto]]].
    rewrite P. permc.
  - intros E. apply set_nth_in in E. destruct E as [E|E]; [discriminate|]. apply Ie. exact E.
  - intros j g' E. rewrite set_nth_nth in E. destruct (Nat.eqb_spec j i) as [->|Ne]; [rewrite H in E; discriminate|]. apply Io in E. congruence.
  - intros j E. destruct (Io2 j E) as [g' E']. exists g'. rewrite set_nth_nth. destruct (Nat.eqb_spec j i) as [->|]; [congruence|exact E'].
  - apply set_nth_nil. exact Iw.
Qed.
Lemma Inv_runs cm order k s : runs cm (length order) k (start order) s -> Inv cm order s.
Proof. intros R. remember (start order) as s0 eqn:E. induction R; subst; [apply Inv_start|]. eapply Inv_step; [apply IHR; reflexivity|eassumption]. Qed.

(** ** Termination *)
Definition wweight (w : Worker) : nat := match w with Idle => 1 | Got _ => 5 | Locked _ => 4 | Sending _ => 3 | Ended => 0 end.
Definition measure (s : State) : nat :=
  6 * length (todo s) + 5 * length (jobs s) + sum wweight (workers s) + length (results s) + (if closed s then 0 else 1) + (if returned s then 0 else 1).
Lemma wweight_set ws i w w' : nth_error ws i = Some w -> sum wweight (set_nth ws i w') + wweight w = sum wweight ws + wweight w'.
Proof.
  intros E. destruct (set_nth_split ws i w' w E) as [a [b [-> [-> _]]]]. rewrite !sum_app, !sum_cons. lia.
Qed.
Lemma measure_step cm cap s s' : step cm cap s (Run s') -> measure s' < measure s.
Proof.
  intros ST. inversion ST; subst; unfold measure; cbn [todo closed jobs workers owner results received acc returned];
    repeat match goal with H : todo s = _ |- _ => rewrite H | H : jobs s = _ |- _ => rewrite H | H : results s = _ |- _ => rewrite H | H : closed s = _ |- _ => rewrite H | H : returned s = _ |- _ => rewrite H end;
    rewrite ?app_length; cbn [length]; try lia;
    match goal with H : nth_error (workers s) ?i = Some _ |- context [set_nth _ ?i ?w'] => pose proof (wweight_set (workers s) i _ w' H) end; cbn [wweight] in *; lia.
Qed.
Lemma runs_measure cm cap k s s' : runs cm cap k s s' -> k + measure s' <= measure s.
Proof. induction 1 as [|k s s1 s2 R IH ST]; [lia|]. apply measure_step in ST. lia. Qed.
Lemma measure_start order : measure (start order) = 6 * length order + 10.
Proof. unfold measure, start. cbn. lia. Qed.

(** ** Progress *)
Definition finished (s : State) : Prop := returned s = true /\ Forall (fun w => w = Ended) (workers s).
Lemma find_worker (P : Worker -> bool) ws : (exists i w, nth_error ws i = Some w /\ P w = true) \/ Forall (fun w => P w = false) ws.
Proof.
  induction ws as [|a ws IH]; [right; constructor|]. destruct (P a) eqn:E; [left; exists 0, a; auto|]. destruct IH as [[i [w H]]|H]; [left; exists (S i), w; exact H|right; constructor; assumption].
Qed.
Lemma Forall2_length' {A B} (R : A -> B -> Prop) l l' : Forall2 R l l' -> length l = length l'.
Proof. induction 1; cbn; congruence. Qed.
Lemma progress cm order s : Inv cm order s -> finished s \/ exists o, step cm (length order) s o.
Proof.
  intros [[wl [gs [seen [P [Fw [Fr [Ls [Ga [Va Gb]]]]]]]]] Ic Ie Io Io2 Iw Irc Irt].
  assert (Len : length order = length (todo s) + length (jobs s) + length (concat wl) + length (results s) + received s).
  { rewrite (Permutation_length P), !app_length, (Forall2_length' _ _ _ Fr). lia. }
  destruct (todo s) as [|g t] eqn:Et.
  2:{ right. eexists. eapply s_send; [exact Et|]. cbn [length] in Len. lia. }
  destruct (closed s) eqn:Ec; [|right; eexists; apply s_close; assumption].
  destruct (find_worker (fun w => match w with Sending _ => true | _ => false end) (workers s)) as [[i [w [E W]]]|NS].
  { destruct w as [| | |r|]; try discriminate. right. eexists. eapply w_send; [exact E|].
    assert (1 <= length (concat wl)); [|cbn [length] in Len; lia]. destruct (pend_change cm _ _ i _ Idle [] Fw E (p_idle cm)) as [a [p [b [-> [W1 _]]]]]. inversion W1; subst. rewrite concat_app, app_length. cbn. lia. }
  destruct (owner s) as [i|] eqn:Eo.
  { destruct (Io2 i eq_refl) as [g E]. right. destruct (work_total cm g) as [[r|] [W _]]; eexists; [eapply w_unlock|eapply w_panic]; eassumption. }
  destruct (find_worker (fun w => match w with Got _ => true | _ => false end) (workers s)) as [[i [w [E W]]]|NG].
  { destruct w as [|g| | |]; try discriminate. right. eexists. eapply w_lock; eassumption. }
  assert (WS : Forall (fun w => w = Idle \/ w = Ended) (workers s)).
  { apply Forall_forall. intros w Hw. rewrite Forall_forall in NS, NG. specialize (NS w Hw). specialize (NG w Hw). destruct w; auto; try discriminate.
    apply In_nth_error in Hw. destruct Hw as [i Hi]. apply Io in Hi. congruence. }
  destruct (find_worker (fun w => match w with Idle => true | _ => false end) (workers s)) as [[i [w [E W]]]|NI].
  { destruct w; try discriminate. right. destruct (jobs s) as [|g js] eqn:Ej; eexists; [eapply w_end|eapply w_take]; eassumption. }
  assert (AE : Forall (fun w => w = Ended) (workers s)).
  { apply Forall_forall. intros w Hw. rewrite Forall_forall in WS, NI. destruct (WS w Hw) as [->| ->]; [|reflexivity]. specialize (NI _ Hw). discriminate. }
  assert (EJ : jobs s = []) by (apply Ie; destruct (workers s) as [|w ws]; [congruence|]; inversion AE; subst; left; reflexivity).
  assert (EW : length (concat wl) = 0).
  { clear - Fw AE. induction Fw as [|w l ws wl W Fw IH]; [reflexivity|]. inversion AE; subst. cbn [concat]. rewrite app_length, IH by assumption. inversion W. reflexivity. }
  rewrite EJ in Len. cbn [length] in Len.
  destruct (returned s) eqn:Er; [left; split; assumption|]. right.
  destruct (results s) as [|r rs] eqn:Es.
  - eexists. apply s_return; [exact Ec|cbn [length] in Len; lia|exact Er].
  - eexists. eapply (s_receive cm _ s r rs r); [exact Ec|cbn [length] in Len; lia|exact Es|reflexivity].
Qed.
