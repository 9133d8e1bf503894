(** * A program logic for the programs of GlobMem.v: ownership of arrays, and its soundness for programs running at the same time. *)
From Coq Require Import String.
From Coq Require Import ZArith Arith List Bool Lia.
From Verif Require Import Utf8 GoStr GlobMatch GlobUtil GlobUtilProps GlobMem.
Import ListNotations.
Open Scope nat_scope.

(** The arrays a program owns. *)
Definition hp := nat -> option (list nat).
Definition hset (h : hp) (i : nat) (a : list nat) : hp := fun x => if Nat.eqb x i then Some a else h x.
Definition hdrop (h : hp) (i : nat) : hp := fun x => if Nat.eqb x i then None else h x.
Definition look (h : hp) (b : bid) : option (list nat) := match b with Static n => Some [n] | Dyn k => h k end.
(** p, owning h, never touches other arrays, writes only its own, gives only its own to the pools, and ends with Q (None = panic). *)
Fixpoint wp {A} (p : prog A) (h : hp) (Q : option A -> hp -> Prop) : Prop :=
  match p with
  | Ret a => Q (Some a) h
  | Panic => Q None h
  | Alloc init k => forall i rest, h i = None -> wp (k (Dyn i)) (hset h i (init ++ rest)) Q
  | Get pool k => In pool initialised /\ forall i a, h i = None -> wp (k (Dyn i)) (hset h i a) Q
  | Put pool b k => exists i a, b = Dyn i /\ h i = Some a /\ wp k (hdrop h i) Q
  | Cap b k => exists a, look h b = Some a /\ wp (k (length a)) h Q
  | Read b i k => exists a v, look h b = Some a /\ nth_error a i = Some v /\ wp (k v) h Q
  | Write b i v k => exists j a, b = Dyn j /\ h j = Some a /\ i < length a /\ wp k (hset h j (upd a i v)) Q
  end.
Lemma wp_mono {A} (p : prog A) : forall h (Q Q' : option A -> hp -> Prop), (forall r h', Q r h' -> Q' r h') -> wp p h Q -> wp p h Q'.
Proof.
  induction p as [a| |init k IH|pool k IH|pool b k IH|b k IH|b i k IH|b i v k IH]; intros h Q Q' H; cbn [wp]; auto.
  - intros W i rest N. eapply IH; [exact H|apply W, N].
  - intros [I W]. split; [exact I|]. intros i a N. eapply IH; [exact H|apply W, N].
  - intros [i [a [E [N W]]]]. exists i, a. split; [exact E|]. split; [exact N|]. eapply IH; [exact H|exact W].
  - intros [a [E W]]. exists a. split; [exact E|]. eapply IH; [exact H|exact W].
  - intros [a [x [E [N W]]]]. exists a, x. split; [exact E|]. split; [exact N|]. eapply IH; [exact H|exact W].
  - intros [j [a [E [N [L W]]]]]. exists j, a. split; [exact E|]. split; [exact N|]. split; [exact L|]. eapply IH; [exact H|exact W].
Qed.
Lemma wp_bind {A B} (p : prog A) (f : A -> prog B) : forall h Q, wp p h (fun r h' => match r with Some a => wp (f a) h' Q | None => Q None h' end) -> wp (bind p f) h Q.
Proof.
  induction p as [a| |init k IH|pool k IH|pool b k IH|b k IH|b i k IH|b i v k IH]; intros h Q; cbn [wp bind]; auto.
  - intros [I W]. split; [exact I|]. intros i a N. apply IH, W, N.
  - intros [i [a [E [N W]]]]. exists i, a. split; [exact E|]. split; [exact N|]. apply IH, W.
  - intros [a [E W]]. exists a. split; [exact E|]. apply IH, W.
  - intros [a [x [E [N W]]]]. exists a, x. split; [exact E|]. split; [exact N|]. apply IH, W.
  - intros [j [a [E [N [L W]]]]]. exists j, a. split; [exact E|]. split; [exact N|]. split; [exact L|]. apply IH, W.
Qed.

(** ** Soundness *)
(** H t: what thread t owns. *)
Record agree (m : Store) (H : nat -> hp) : Prop := {
  ag_static : forall n, arrays m (Static n) = Some [n];
  ag_own : forall t k a, H t k = Some a -> arrays m (Dyn k) = Some a;
  ag_apart : forall t u k a b, H t k = Some a -> H u k = Some b -> t = u;
  ag_pool : forall pool b, In (pool, b) (pools m) -> exists k a, b = Dyn k /\ arrays m b = Some a /\ forall t, H t k = None;
  ag_once : NoDup (map snd (pools m));
  ag_room : exists n, forall k, n <= k -> arrays m (Dyn k) = None }.
Definition turn (H : nat -> hp) (t : nat) (h : hp) : nat -> hp := fun u => if Nat.eqb u t then h else H u.
Lemma turn_same H t h : turn H t h t = h.
Proof. unfold turn. rewrite Nat.eqb_refl. reflexivity. Qed.
Lemma turn_other H t h u : u <> t -> turn H t h u = H u.
Proof. intros N. unfold turn. destruct (Nat.eqb_spec u t); [contradiction|reflexivity]. Qed.
Lemma hset_same h i a : hset h i a i = Some a.
Proof. unfold hset. rewrite Nat.eqb_refl. reflexivity. Qed.
Lemma hset_other h i a k : k <> i -> hset h i a k = h k.
Proof. intros N. unfold hset. destruct (Nat.eqb_spec k i); [contradiction|reflexivity]. Qed.
Lemma hdrop_same h i : hdrop h i i = None.
Proof. unfold hdrop. rewrite Nat.eqb_refl. reflexivity. Qed.
Lemma hdrop_other h i k : k <> i -> hdrop h i k = h k.
Proof. intros N. unfold hdrop. destruct (Nat.eqb_spec k i); [contradiction|reflexivity]. Qed.
Lemma put_same m b a : arrays (put_array m b a) b = Some a.
Proof. cbn. destruct (bid_eq b b); [reflexivity|contradiction]. Qed.
Lemma put_other m b a x : x <> b -> arrays (put_array m b a) x = arrays m x.
Proof. intros N. cbn. destruct (bid_eq x b); [contradiction|reflexivity]. Qed.
Lemma dyn_other i k : k <> i -> Dyn k <> Dyn i.
Proof. intros N E. injection E as E. contradiction. Qed.
(** A new array for thread t. *)
Lemma agree_new m H t i a : agree m H -> arrays m (Dyn i) = None -> agree (put_array m (Dyn i) a) (turn H t (hset (H t) i a)) /\ H t i = None.
Proof.
  intros A N. assert (F : forall u, H u i = None) by (intros u; destruct (H u i) as [x|] eqn:E; [apply (ag_own m H A) in E; congruence|reflexivity]). split; [|apply F].
  assert (T : forall u k x, turn H t (hset (H t) i a) u k = Some x -> u = t /\ k = i /\ x = a \/ k <> i /\ H u k = Some x).
  { intros u k x E. destruct (Nat.eq_dec k i) as [->|Nk]; [left|right].
    - destruct (Nat.eq_dec u t) as [->|Nu]; [rewrite turn_same, hset_same in E; injection E as <-; auto|]. rewrite (turn_other _ _ _ _ Nu), F in E. discriminate.
    - split; [exact Nk|]. destruct (Nat.eq_dec u t) as [->|Nu]; [rewrite turn_same, (hset_other _ _ _ _ Nk) in E; exact E|]. rewrite (turn_other _ _ _ _ Nu) in E. exact E. }
  constructor.
  - intros n. rewrite put_other by discriminate. apply (ag_static m H A).
  - intros u k x E. apply T in E. destruct E as [[-> [-> ->]]|[Nk E]]; [apply put_same|]. rewrite put_other by (apply dyn_other, Nk). apply (ag_own m H A u k x E).
  - intros u w k x y E1 E2. apply T in E1, E2. destruct E1 as [[-> [-> ->]]|[Nk E1]], E2 as [[-> [? ->]]|[Nk2 E2]]; try congruence. exact (ag_apart m H A u w k x y E1 E2).
  - intros pool b I. destruct (ag_pool m H A pool b I) as [k [x [-> [E O]]]]. assert (Nk : k <> i) by (intros ->; congruence). exists k, x. split; [reflexivity|]. split; [rewrite put_other by (apply dyn_other, Nk); exact E|].
    intros u. destruct (Nat.eq_dec u t) as [->|Nu]; [rewrite turn_same, (hset_other _ _ _ _ Nk)|rewrite (turn_other _ _ _ _ Nu)]; apply O.
  - exact (ag_once m H A).
  - destruct (ag_room m H A) as [n R]. exists (Nat.max n (S i)). intros k L. rewrite put_other by (apply dyn_other; lia). apply R. lia.
Qed.
Lemma step_ok {A} m (p : prog A) m' p' H t Q : agree m H -> wp p (H t) Q -> step m p m' p' -> exists h', agree m' (turn H t h') /\ wp p' h' Q.
Proof.
  intros AG W St.
  assert (Same : agree m (turn H t (H t))).
  { assert (E : forall u k, turn H t (H t) u k = H u k) by (intros u k; destruct (Nat.eq_dec u t) as [->|Nu]; [rewrite turn_same|rewrite (turn_other _ _ _ _ Nu)]; reflexivity).
    destruct AG as [A1 A2 A3 A4 A5 A6]. constructor; auto.
    - intros u k a. rewrite E. apply A2.
    - intros u v k a b. rewrite !E. apply A3.
    - intros pool b I. destruct (A4 pool b I) as [k [a [-> [X O]]]]. exists k, a. split; [reflexivity|]. split; [exact X|]. intros u. rewrite E. apply O. }
  assert (Lk : forall b a, look (H t) b = Some a -> arrays m b = Some a) by (intros [n|k] a E; [injection E as <-; apply (ag_static m H AG)|exact (ag_own m H AG t k a E)]).
  destruct St as [m init k i rest N|m pool k b before after EP|m pool k i I N|m pool k NI|m pool b k|m b k a E|m b i k a v E Ev|m b i k a E Ev|m b i v k a E L|m b i v k a E L]; cbn [wp] in W.
  - destruct (agree_new m H t i (init ++ rest) AG N) as [A' F]. eexists. split; [exact A'|]. apply W, F.
  - destruct W as [_ W]. destruct (ag_pool m H AG pool b ltac:(rewrite EP; apply in_or_app; right; left; reflexivity)) as [i [a [-> [X O]]]]. exists (hset (H t) i a). split; [|apply W, O].
    pose proof (ag_once m H AG) as ND. rewrite EP, map_app in ND. cbn [map snd] in ND. pose proof (NoDup_remove_1 _ _ _ ND) as ND1. pose proof (NoDup_remove_2 _ _ _ ND) as ND2. rewrite <- map_app in ND1, ND2.
    assert (T : forall u k x, turn H t (hset (H t) i a) u k = Some x -> u = t /\ k = i /\ x = a \/ k <> i /\ H u k = Some x).
    { intros u q x E. destruct (Nat.eq_dec q i) as [->|Nk]; [left|right].
      - destruct (Nat.eq_dec u t) as [->|Nu]; [rewrite turn_same, hset_same in E; injection E as <-; auto|]. rewrite (turn_other _ _ _ _ Nu), O in E. discriminate.
      - split; [exact Nk|]. destruct (Nat.eq_dec u t) as [->|Nu]; [rewrite turn_same, (hset_other _ _ _ _ Nk) in E; exact E|]. rewrite (turn_other _ _ _ _ Nu) in E. exact E. }
    constructor.
    + exact (ag_static m H AG).
    + intros u q x E. apply T in E. destruct E as [[-> [-> ->]]|[Nk E]]; [exact X|exact (ag_own m H AG u q x E)].
    + intros u w q x y E1 E2. apply T in E1, E2. destruct E1 as [[-> [-> ->]]|[Nk E1]], E2 as [[-> [? ->]]|[Nk2 E2]]; try congruence. exact (ag_apart m H AG u w q x y E1 E2).
    + intros pl b I. cbn [pools with_pools] in I. assert (I' : In (pl, b) (pools m)) by (rewrite EP; rewrite in_app_iff in *; cbn [In]; tauto). destruct (ag_pool m H AG pl b I') as [q [x [-> [E O']]]].
      assert (Nk : q <> i) by (intros ->; apply ND2; apply (in_map snd) in I; exact I). exists q, x. split; [reflexivity|]. split; [exact E|]. intros u. destruct (Nat.eq_dec u t) as [->|Nu]; [rewrite turn_same, (hset_other _ _ _ _ Nk)|rewrite (turn_other _ _ _ _ Nu)]; apply O'.
    + exact ND1.
    + exact (ag_room m H AG).
  - destruct W as [_ W]. destruct (agree_new m H t i (repeat 0 (Z.to_nat (pool + 1))) AG N) as [A' F]. eexists. split; [exact A'|]. apply W, F.
  - destruct W as [I _]. contradiction.
  - destruct W as [i [a [-> [E W]]]]. exists (hdrop (H t) i). split; [|exact W].
    assert (T : forall u q x, turn H t (hdrop (H t) i) u q = Some x -> H u q = Some x /\ (q = i -> u <> t)).
    { intros u q x F. destruct (Nat.eq_dec u t) as [->|Nu]; [|rewrite (turn_other _ _ _ _ Nu) in F; auto]. rewrite turn_same in F. destruct (Nat.eq_dec q i) as [->|Nq]; [rewrite hdrop_same in F; discriminate|]. rewrite (hdrop_other _ _ _ Nq) in F. split; [exact F|]. intros; contradiction. }
    constructor.
    + exact (ag_static m H AG).
    + intros u q x F. apply T in F. exact (ag_own m H AG u q x (proj1 F)).
    + intros u w q x y E1 E2. apply T in E1, E2. exact (ag_apart m H AG u w q x y (proj1 E1) (proj1 E2)).
    + intros pl b [I|I].
      * injection I as <- <-. exists i, a. split; [reflexivity|]. split; [exact (ag_own m H AG t i a E)|]. intros u. destruct (turn H t (hdrop (H t) i) u i) as [x|] eqn:F; [|reflexivity]. apply T in F. destruct F as [F1 F2]. destruct (F2 eq_refl). exact (ag_apart m H AG u t i x a F1 E).
      * destruct (ag_pool m H AG pl b I) as [q [x [-> [F O]]]]. exists q, x. split; [reflexivity|]. split; [exact F|]. intros u. destruct (turn H t (hdrop (H t) i) u q) as [y|] eqn:G; [|reflexivity]. apply T in G. rewrite O in G. destruct G. discriminate.
    + cbn [pools with_pools map snd]. constructor; [|exact (ag_once m H AG)]. intros I. apply in_map_iff in I. destruct I as [[pl b] [E1 I]]. cbn in E1. subst b. destruct (ag_pool m H AG pl _ I) as [q [x [E1 [_ O]]]]. injection E1 as <-. rewrite O in E. discriminate.
    + exact (ag_room m H AG).
  - destruct W as [a' [E' W]]. apply Lk in E'. rewrite E in E'. injection E' as <-. exists (H t). auto.
  - destruct W as [a' [v' [E' [N W]]]]. apply Lk in E'. rewrite E in E'. injection E' as <-. rewrite Ev in N. injection N as <-. exists (H t). auto.
  - destruct W as [a' [v' [E' [N W]]]]. apply Lk in E'. rewrite E in E'. injection E' as <-. congruence.
  - destruct W as [j [a' [-> [E' [_ W]]]]]. pose proof (ag_own m H AG t j a' E') as E2. rewrite E in E2. injection E2 as <-. exists (hset (H t) j (upd a i v)). split; [|exact W].
    assert (F : forall u, u <> t -> H u j = None) by (intros u Nu; destruct (H u j) as [x|] eqn:F; [destruct Nu; exact (ag_apart m H AG u t j x a F E')|reflexivity]).
    assert (T : forall u k x, turn H t (hset (H t) j (upd a i v)) u k = Some x -> u = t /\ k = j /\ x = upd a i v \/ k <> j /\ H u k = Some x).
    { intros u q x F1. destruct (Nat.eq_dec q j) as [->|Nk]; [left|right].
      - destruct (Nat.eq_dec u t) as [->|Nu]; [rewrite turn_same, hset_same in F1; injection F1 as <-; auto|]. rewrite (turn_other _ _ _ _ Nu), (F u Nu) in F1. discriminate.
      - split; [exact Nk|]. destruct (Nat.eq_dec u t) as [->|Nu]; [rewrite turn_same, (hset_other _ _ _ _ Nk) in F1; exact F1|]. rewrite (turn_other _ _ _ _ Nu) in F1. exact F1. }
    constructor.
    + intros n. rewrite put_other by discriminate. apply (ag_static m H AG).
    + intros u q x F1. apply T in F1. destruct F1 as [[-> [-> ->]]|[Nk F1]]; [apply put_same|]. rewrite put_other by (apply dyn_other, Nk). exact (ag_own m H AG u q x F1).
    + intros u w q x y E1 E2. apply T in E1, E2. destruct E1 as [[-> [-> ->]]|[Nk E1]], E2 as [[-> [? ->]]|[Nk2 E2]]; try congruence. exact (ag_apart m H AG u w q x y E1 E2).
    + intros pl b I. destruct (ag_pool m H AG pl b I) as [q [x [-> [E1 O]]]]. assert (Nk : q <> j) by (intros ->; rewrite O in E'; discriminate). exists q, x. split; [reflexivity|]. split; [rewrite put_other by (apply dyn_other, Nk); exact E1|].
      intros u. destruct (Nat.eq_dec u t) as [->|Nu]; [rewrite turn_same, (hset_other _ _ _ _ Nk)|rewrite (turn_other _ _ _ _ Nu)]; apply O.
    + exact (ag_once m H AG).
    + destruct (ag_room m H AG) as [n R]. exists (Nat.max n (S j)). intros q Lq. rewrite put_other by (apply dyn_other; lia). apply R. lia.
  - destruct W as [j [a' [-> [E' [L' W]]]]]. pose proof (ag_own m H AG t j a' E') as E2. rewrite E in E2. injection E2 as <-. lia.
Qed.
