(** * C81: Generate called by several goroutines. *)
From Coq Require Import String ZArith Arith List Bool Lia Permutation.
From Verif Require Import PasswordModel PasswordProofs PasswordSpec PasswordProps PasswordConc PasswordConcProofs.
Import ListNotations.
Open Scope Z_scope.

(** ** Specification *)
(** What Generate gives for the call c when it is alone and the reader delivers exactly the bytes bs and then fails. *)
Definition alone (c : call) (bs : list Z) (r : result (list Z)) : Prop :=
  exists F, forall f, (F <= f)%nat ->
    Generate f (gen c) bs (len c) (PasswordConc.numDigits c) (PasswordConc.numSymbols c) (noUpper c) (allowRepeat c) = r.
(** What an outcome looks like for Generate with every byte used up. *)
Definition outcome_result (o : outcome) : result (list Z) :=
  match o with Password s => Ok s [] | Failed e => Err e | Panicked => Panic end.
(** The bytes that went to call i, in a log of who got which byte. *)
Definition share (i : nat) (log : list (nat * Z)) : list Z := map snd (filter (fun p => (fst p =? i)%nat) log).
(** At the end of cfg every call has returned its password, having been given exactly its bytes, and no byte is left. *)
Definition ends_with (cfg : config) (words : list (list Z * list Z)) : Prop :=
  fst cfg = [] /\ forall i bs w, nth_error words i = Some (bs, w) -> at_ (snd cfg i) = Finished (Password w) /\ got (snd cfg i) = bs.
Definition total (words : list (list Z * list Z)) : nat := list_sum (map (fun p => length (fst p)) words).

(** ** Each call is as if alone *)
Theorem C81_as_alone calls rng rng' T i c o :
  steps (length calls) (init calls rng) (rng', T) -> nth_error calls i = Some c -> at_ (T i) = Finished o ->
  alone c (got (T i)) (outcome_result o).
Proof.
  intros St E F. pose proof (steps_faithful _ _ _ St i c E) as [[W H]|[A H]]; cbn [snd] in *.
  - specialize (H [] (as_result o [])). unfold waits_well in W. rewrite F in W. cbn [wants] in W. rewrite W, F in H. cbn [app] in H.
    rewrite app_nil_r in H. specialize (H ltac:(exists 0%nat; intros; reflexivity)).
    apply start_Generate in H. destruct o; exact H.
  - rewrite A in F. injection F as <-. apply start_Generate in H. exact H.
Qed.
Print Assumptions C81_as_alone.

(** ** Every byte goes to one call *)
Lemma share_app i l1 l2 : share i (l1 ++ l2) = share i l1 ++ share i l2.
Proof. unfold share. rewrite filter_app, map_app. reflexivity. Qed.
Lemma share_own i bs : share i (map (fun x => (i, x)) bs) = bs.
Proof. induction bs as [|x bs IH]; [reflexivity|]. unfold share in *. cbn. rewrite Nat.eqb_refl. cbn. rewrite IH. reflexivity. Qed.
Lemma share_other i j bs : i <> j -> share i (map (fun x => (j, x)) bs) = [].
Proof. intros N. induction bs as [|x bs IH]; [reflexivity|]. unfold share in *. cbn. destruct (Nat.eqb_spec j i); [congruence|]. exact IH. Qed.
Lemma act_got rng t rng' t' : act rng t rng' t' -> exists bs, rng = bs ++ rng' /\ got t' = got t ++ bs.
Proof.
  destruct 1 as [rng t s' E|rng t k b max bs E L|rng t k b max E].
  - exists []. rewrite app_nil_r. split; reflexivity.
  - exists bs. split; [reflexivity|]. unfold receive. destruct (_ <? _)%nat; reflexivity.
  - exists []. rewrite app_nil_r. split; reflexivity.
Qed.
Theorem C81_bytes_once calls rng rng' T :
  steps (length calls) (init calls rng) (rng', T) ->
  exists log, rng = map snd log ++ rng' /\ (forall p, In p log -> (fst p < length calls)%nat) /\
    forall i, (i < length calls)%nat -> got (T i) = share i log.
Proof.
  intros St. remember (init calls rng) as c0 eqn:E0. remember (rng', T) as c1 eqn:E1. revert rng' T E1.
  induction St as [c2|c2 c3 c4 H1 IH H2]; intros rng' T E1; subst.
  - injection E1 as <- <-. exists []. split; [reflexivity|]. split; [intros p []|]. intros i Hi.
    destruct (nth_error calls i) as [c|] eqn:E; [|apply nth_error_None in E; lia].
    pose proof (init_nth calls rng i c E) as Q. cbn [init snd] in Q. rewrite Q. reflexivity.
  - inversion H2 as [j rng2 T2 rng3 t' Hj A]; subst.
    destruct (IH eq_refl rng2 T2 eq_refl) as [log [E [B S1]]]. destruct (act_got _ _ _ _ A) as [bs [E2 G]].
    exists (log ++ map (fun x => (j, x)) bs). rewrite map_app, map_map. cbn [snd]. rewrite map_id. split; [rewrite <- app_assoc, <- E2; exact E|]. split.
    + intros p Hp. apply in_app_or in Hp. destruct Hp as [Hp|Hp]; [apply B, Hp|]. apply in_map_iff in Hp. destruct Hp as [x [<- _]]. exact Hj.
    + intros i Hi. rewrite share_app. destruct (Nat.eq_dec i j) as [->|N].
      * rewrite set_same, share_own, <- S1 by exact Hj. exact G.
      * rewrite set_other, share_other, app_nil_r by exact N. apply S1, Hi.
Qed.
Print Assumptions C81_bytes_once.

(** ** Every password is what was asked for *)
Lemma share_bytes i log rng' : bytes (map snd log ++ rng') -> bytes (share i log).
Proof.
  intros B. apply Forall_app in B. destruct B as [B _]. unfold bytes, share in *. rewrite Forall_map in *. rewrite Forall_forall in *.
  intros p Hp. apply filter_In in Hp. apply B, Hp.
Qed.
Theorem C81_composition calls rng rng' T i c w :
  bytes rng -> steps (length calls) (init calls rng) (rng', T) -> nth_error calls i = Some c -> at_ (T i) = Finished (Password w) ->
  gen_sets ascii (gen c) -> 0 <= PasswordConc.numDigits c -> 0 <= PasswordConc.numSymbols c ->
  Z.of_nat (length w) = len c /\ (allowRepeat c = false -> NoDup w) /\
  exists ls ds ss, Permutation w (ls ++ ds ++ ss)
    /\ Z.of_nat (length ls) = len c - PasswordConc.numDigits c - PasswordConc.numSymbols c
    /\ Z.of_nat (length ds) = PasswordConc.numDigits c /\ Z.of_nat (length ss) = PasswordConc.numSymbols c
    /\ (forall b, In b ls -> In b (lowerLetters (gen c)) \/ (noUpper c = false /\ In b (upperLetters (gen c))))
    /\ (forall b, In b ds -> In b (digits (gen c))) /\ (forall b, In b ss -> In b (symbols (gen c))).
Proof.
  intros B St E F A H1 H2. pose proof (C81_as_alone _ _ _ _ _ _ _ St E F) as [Fu G]. specialize (G Fu (le_n _)). cbn [outcome_result] in G.
  destruct (C81_bytes_once _ _ _ _ St) as [log [R [_ O]]].
  assert (Bi : bytes (got (T i))).
  { rewrite O by (apply nth_error_Some; rewrite E; discriminate). eapply share_bytes. rewrite <- R. exact B. }
  destruct (C08_composition _ _ _ _ _ _ _ _ _ _ Bi A H1 H2 G) as [L P]. split; [exact L|]. split; [|exact P].
  intros AR. rewrite AR in G. exact (C09_no_repeats _ _ _ _ _ _ _ _ _ Bi A G).
Qed.
Print Assumptions C81_composition.

(** ** No call waits for another *)
Lemma runs_steps n i rng t rng' t' m : runs rng t rng' t' m -> waits_well t -> (i < n)%nat -> forall T, T i = t ->
  exists T', steps n (rng, T) (rng', T') /\ T' i = t' /\ forall j, j <> i -> T' j = T j.
Proof.
  assert (front : forall c1 c2 c3, step n c1 c2 -> steps n c2 c3 -> steps n c1 c3).
  { intros c1 c2 c3 H1 H2. induction H2; [eapply steps_more; [apply steps_none|exact H1]|eapply steps_more; eauto]. }
  induction 1 as [rng t|rng t rng1 t1 rng2 t2 m E R IH]; intros W Hi T HT.
  - exists T. split; [apply steps_none|]. split; [exact HT|reflexivity].
  - destruct (turn_act _ _ _ _ W E) as [A W1]. destruct (IH W1 Hi (set_thread T i t1) (set_same _ _ _)) as [T' [St [E1 O]]].
    exists T'. split; [|split; [exact E1|]].
    + eapply front; [|exact St]. constructor; [exact Hi|]. rewrite HT. exact A.
    + intros j N. rewrite O by exact N. apply set_other, N.
Qed.
Lemma runs_got rng t rng' t' m : runs rng t rng' t' m -> got t' ++ rng' = got t ++ rng.
Proof.
  induction 1 as [rng t|rng t rng1 t1 rng2 t2 m E R IH]; [reflexivity|]. rewrite IH. revert E. unfold turn.
  destruct (wants _) as [|s'|k b max]; [discriminate|intros E; injection E as <- <-; reflexivity|].
  destruct rng as [|x rng]; [discriminate|]. intros E. injection E as <- <-. unfold receive. destruct (_ <? _)%nat; cbn [got]; rewrite <- app_assoc; reflexivity.
Qed.
Theorem C81_no_waiting calls rng rng' T i c w rest :
  steps (length calls) (init calls rng) (rng', T) -> nth_error calls i = Some c -> at_ (T i) <> Finished (Failed ErrReader) ->
  alone c (got (T i) ++ rng') (Ok w rest) ->
  exists T', steps (length calls) (rng', T) (rest, T') /\ at_ (T' i) = Finished (Password w) /\ got (T' i) ++ rest = got (T i) ++ rng' /\
    forall j, j <> i -> T' j = T j.
Proof.
  intros St E N [F G]. specialize (G F (le_n _)). apply Generate_chunks in G. destruct (chunks_runs _ _ _ _ G []) as [u [m [Eu R]]].
  destruct (steps_historic _ _ _ St i c E) as [X|[W [m0 R0]]]; cbn [snd] in *; [congruence|].
  apply (runs_app rng') in R0. cbn [app] in R0. destruct (runs_det _ _ _ _ _ R0 _ _ _ R eq_refl) as [m1 R1].
  destruct (runs_steps (length calls) i _ _ _ _ _ R1 W ltac:(apply nth_error_Some; rewrite E; discriminate) T eq_refl) as [T' [S' [E' O]]].
  exists T'. split; [exact S'|]. rewrite E'. split; [reflexivity|]. split; [exact (runs_got _ _ _ _ _ R1)|exact O].
Qed.
Print Assumptions C81_no_waiting.

(** ** Independent passwords *)
(** Whatever the scheduler does, a tuple of byte strings on which the calls succeed comes from exactly one stream. *)
Lemma turn_cases rng t rng' t' : turn rng t = Some (rng', t') ->
  (rng' = rng /\ got t' = got t /\ forall r, turn r t = Some (r, t')) \/
  (exists x, rng = x :: rng' /\ got t' = got t ++ [x] /\ forall r y, exists t2, turn (y :: r) t = Some (r, t2) /\ got t2 = got t ++ [y] /\ (y = x -> t2 = t')).
Proof.
  unfold turn. destruct (wants (at_ t)) as [|s'|k b max] eqn:W; [discriminate| |].
  - intros E. injection E as <- <-. left. split; [reflexivity|]. split; reflexivity.
  - destruct rng as [|x rng]; [discriminate|]. intros E. injection E as <- <-. right. exists x. split; [reflexivity|].
    assert (G : forall y, got (receive t k b max [y]) = got t ++ [y]) by (intros y; unfold receive; destruct (_ <? _)%nat; reflexivity).
    split; [apply G|]. intros r y. exists (receive t k b max [y]). split; [reflexivity|]. split; [apply G|]. intros ->. reflexivity.
Qed.
Lemma play_got sigma n i : forall m moves read rng T, exists z, got (snd (play sigma n m moves read rng T) i) = got (T i) ++ z.
Proof.
  induction m as [|m IH]; intros moves read rng T; cbn [play]; [exists []; rewrite app_nil_r; reflexivity|].
  destruct (live n T) as [|a l]; [exists []; rewrite app_nil_r; reflexivity|].
  destruct (turn rng _) as [[rng' t']|] eqn:E; [|exists []; rewrite app_nil_r; reflexivity].
  set (j := nth _ _ _) in *. destruct (IH (S moves) (read ++ firstn (length rng - length rng') rng) rng' (set_thread T j t')) as [z Hz]. rewrite Hz.
  destruct (Nat.eq_dec i j) as [->|N]; [|rewrite set_other by exact N; exists z; reflexivity]. rewrite set_same.
  destruct (turn_cases _ _ _ _ E) as [[_ [G _]]|[x [_ [G _]]]]; rewrite G; [exists z; reflexivity|exists ([x] ++ z); rewrite app_assoc; reflexivity].
Qed.
Definition upd {A} (f : nat -> A) (i : nat) (x : A) : nat -> A := fun j => if (j =? i)%nat then x else f j.
Lemma sum_upd (f : nat -> nat) i v : forall n s, (s <= i < s + n)%nat ->
  (list_sum (map (upd f i v) (seq s n)) + f i = list_sum (map f (seq s n)) + v)%nat.
Proof.
  induction n as [|n IH]; intros s H; [lia|]. cbn [seq map]. change (list_sum (?a :: ?l)) with (a + list_sum l)%nat.
  change (list_sum (upd f i v s :: map (upd f i v) (seq (S s) n))) with (upd f i v s + list_sum (map (upd f i v) (seq (S s) n)))%nat.
  change (list_sum (f s :: map f (seq (S s) n))) with (f s + list_sum (map f (seq (S s) n)))%nat.
  destruct (Nat.eq_dec s i) as [->|N].
  - unfold upd at 1. rewrite Nat.eqb_refl. rewrite (map_ext_in (upd f i v) f); [lia|].
    intros j Hj. apply in_seq in Hj. unfold upd. destruct (Nat.eqb_spec j i); [lia|reflexivity].
  - specialize (IH (S s) ltac:(lia)). unfold upd at 1. destruct (Nat.eqb_spec s i); [congruence|]. lia.
Qed.
Lemma sum_ext (f g : nat -> nat) n : (forall i, (i < n)%nat -> f i = g i) -> list_sum (map f (seq 0 n)) = list_sum (map g (seq 0 n)).
Proof. intros H. f_equal. apply map_ext_in. intros i Hi. apply in_seq in Hi. apply H. lia. Qed.
Lemma live_nth n T k : live n T <> [] -> let i := nth (k mod length (live n T)) (live n T) O in (i < n)%nat /\ finished (T i) = false.
Proof.
  intros N i. assert (I : In i (live n T)).
  { apply nth_In. apply Nat.mod_upper_bound. destruct (live n T); [congruence|discriminate]. }
  unfold live in I. apply filter_In in I. destruct I as [I1 I2]. apply in_seq in I1. split; [lia|]. destruct (finished (T i)); [discriminate|reflexivity].
Qed.
Lemma joint_aux sigma n : forall tot moves read T (u w : nat -> list Z) (ms : nat -> nat) (fin : nat -> thread),
  list_sum (map ms (seq 0 n)) = tot ->
  (forall i, (i < n)%nat -> runs (u i) (T i) [] (fin i) (ms i) /\ at_ (fin i) = Finished (Password (w i))) ->
  exists s, length s = list_sum (map (fun i => length (u i)) (seq 0 n)) /\
    (exists m, let cfg := play sigma n m moves read s T in fst cfg = [] /\ forall i, (i < n)%nat -> snd cfg i = fin i) /\
    forall s', length s' = length s ->
      (exists m, let cfg := play sigma n m moves read s' T in forall i, (i < n)%nat -> finished (snd cfg i) = true /\ got (snd cfg i) = got (T i) ++ u i) -> s' = s.
Proof.
  induction tot as [tot IH] using lt_wf_ind. intros moves read T u w ms fin Et H.
  destruct (live n T) as [|a l] eqn:L.
  - (* all have finished *)
    assert (D : forall i, (i < n)%nat -> u i = [] /\ T i = fin i).
    { intros i Hi. destruct (H i Hi) as [R F]. destruct (finished (T i)) eqn:Fi.
      - inversion R as [? ? E1 E2 E3|? ? ? ? ? ? ? E1]; subst; [split; [auto|reflexivity]|].
        unfold turn in E1. unfold finished in Fi. destruct (at_ (T i)); try discriminate Fi; cbn in E1; discriminate.
      - exfalso. assert (In i (live n T)) as I by (unfold live; apply filter_In; split; [apply in_seq; lia|rewrite Fi; reflexivity]). rewrite L in I. destruct I. }
    exists []. split; [|split].
    + rewrite (sum_ext _ (fun _ => 0)%nat) by (intros i Hi; destruct (D i Hi) as [-> _]; reflexivity).
      cbn [length]. clear. induction (seq 0 n) as [|x q IHq]; [reflexivity|exact IHq].
    + exists 0%nat. cbn. split; [reflexivity|]. intros i Hi. apply (D i Hi).
    + intros s' Ls _. destruct s'; [reflexivity|discriminate].
  - assert (NE : live n T <> []) by (rewrite L; discriminate).
    pose proof (live_nth n T (sigma moves read) NE) as LN. cbv zeta in LN. set (i := nth (sigma moves read mod length (live n T)) (live n T) 0%nat) in *.
    destruct LN as [Hi Fi]. destruct (H i Hi) as [R F].
    inversion R as [? ? E1 E2 E3|ui ti u1 t1 ? ? m1 E1 R1 E4 E5 E6]; subst.
    { exfalso. unfold finished in Fi. assert (QQ : T i = fin i) by congruence. rewrite QQ, F in Fi. discriminate. }
    assert (PLAY : forall m rng, play sigma n (S m) moves read rng T =
      match turn rng (T i) with None => (rng, T) | Some (rng', t') => play sigma n m (S moves) (read ++ firstn (length rng - length rng') rng) rng' (set_thread T i t') end).
    { intros m rng. cbn [play]. rewrite L. unfold i. rewrite L. reflexivity. }
    assert (SUM : (list_sum (map (upd ms i m1) (seq 0 n)) < list_sum (map ms (seq 0 n)))%nat).
    { pose proof (sum_upd ms i m1 n 0 ltac:(lia)). lia. }
    assert (H' : forall j, (j < n)%nat -> runs (upd u i u1 j) (set_thread T i t1 j) [] (fin j) (upd ms i m1 j) /\ at_ (fin j) = Finished (Password (w j))).
    { intros j Hj. unfold upd, set_thread. destruct (Nat.eqb_spec j i) as [->|N]; [split; [exact R1|exact F]|apply H, Hj]. }
    destruct (turn_cases _ _ _ _ E1) as [[Eu [G TT]]|[x [Eu [G TT]]]].
    + destruct (IH _ SUM (S moves) (read ++ []) (set_thread T i t1) (upd u i u1) w (upd ms i m1) fin eq_refl H') as [s [Ls [[m P] U]]].
      exists s. split; [|split].
      * rewrite Ls. apply sum_ext. intros j Hj. unfold upd. destruct (Nat.eqb_spec j i) as [->|]; congruence.
      * exists (S m). rewrite PLAY, TT. rewrite Nat.sub_diag, firstn_O. exact P.
      * intros s' Ls' [m' P']. apply U; [exact Ls'|]. destruct m' as [|m'].
        { exfalso. destruct (P' i Hi) as [Q _]. cbn in Q. congruence. }
        exists m'. rewrite PLAY, TT, Nat.sub_diag, firstn_O in P'. cbv zeta in P' |- *. intros j Hj. destruct (P' j Hj) as [Q1 Q2]. split; [exact Q1|].
        rewrite Q2. unfold set_thread, upd. destruct (Nat.eqb_spec j i) as [->|]; [rewrite G; congruence|reflexivity].
    + destruct (IH _ SUM (S moves) (read ++ [x]) (set_thread T i t1) (upd u i u1) w (upd ms i m1) fin eq_refl H') as [s [Ls [[m P] U]]].
      assert (CONS : forall y (r : list Z), firstn (length (y :: r) - length r) (y :: r) = [y]).
      { intros y r. cbn [length]. replace (S (length r) - length r)%nat with 1%nat by lia. reflexivity. }
      exists (x :: s). split; [|split].
      * cbn [length]. rewrite Ls. pose proof (sum_upd (fun j => length (u j)) i (length u1) n 0 ltac:(lia)) as Q. cbv beta in Q. rewrite Eu in Q. cbn [length] in Q.
        rewrite (sum_ext (fun j => length (upd u i u1 j)) (upd (fun j => length (u j)) i (length u1))); [lia|].
        intros j Hj. unfold upd. destruct (j =? i)%nat; reflexivity.
      * exists (S m). destruct (TT s x) as [t2 [T2 [_ T3]]]. rewrite PLAY, T2, CONS, (T3 eq_refl). exact P.
      * intros s' Ls' [m' P']. destruct m' as [|m'].
        { exfalso. destruct (P' i Hi) as [Q _]. cbn in Q. congruence. }
        rewrite PLAY in P'. destruct s' as [|y s']; [discriminate|].
        destruct (TT s' y) as [t2 [T2 [G2 T3]]]. rewrite T2, CONS in P'. cbv zeta in P'.
        assert (y = x).
        { destruct (P' i Hi) as [_ Q]. destruct (play_got sigma n i m' (S moves) (read ++ [y]) s' (set_thread T i t2)) as [z Hz].
          rewrite Hz, set_same, G2, Eu, <- app_assoc in Q. apply app_inv_head in Q. cbn in Q. congruence. }
        subst y. rewrite (T3 eq_refl) in P'. f_equal. apply U; [cbn in Ls'; lia|]. exists m'. cbv zeta. intros j Hj.
        destruct (P' j Hj) as [Q1 Q2]. split; [exact Q1|]. rewrite Q2. unfold set_thread, upd. destruct (Nat.eqb_spec j i) as [->|]; [rewrite G, Eu, <- app_assoc; reflexivity|reflexivity].
Qed.
Theorem C81_joint sigma calls words :
  length words = length calls ->
  (forall i c bs w, nth_error calls i = Some c -> nth_error words i = Some (bs, w) -> alone c bs (Ok w [])) ->
  exists s, length s = total words /\
    (exists m, ends_with (play sigma (length calls) m 0 [] s (snd (init calls s))) words) /\
    forall s', length s' = total words ->
      (exists m, ends_with (play sigma (length calls) m 0 [] s' (snd (init calls s'))) words) -> s' = s.
Proof.
  intros Lw H.
  set (u := fun i => fst (nth i words ([], []))). set (w := fun i => snd (nth i words ([], []))).
  assert (NW : forall i, (i < length calls)%nat -> nth_error words i = Some (u i, w i)).
  { intros i Hi. unfold u, w. rewrite <- surjective_pairing. apply nth_error_nth'. lia. }
  assert (RUN : forall i, (i < length calls)%nat -> exists m, runs (u i) (snd (init calls []) i) [] {| at_ := Finished (Password (w i)); part := []; got := u i |} m).
  { intros i Hi. destruct (nth_error calls i) as [c|] eqn:E; [|apply nth_error_None in E; lia].
    destruct (H i c _ _ E (NW i Hi)) as [F G]. specialize (G F (le_n _)). apply Generate_chunks in G.
    destruct (chunks_runs _ _ _ _ G []) as [u0 [m [Eu R]]]. rewrite app_nil_r in Eu. subst u0.
    rewrite (init_nth _ _ _ _ E). exists m. exact R. }
  assert (exists ms : nat -> nat, forall i, (i < length calls)%nat -> runs (u i) (snd (init calls []) i) [] {| at_ := Finished (Password (w i)); part := []; got := u i |} (ms i)) as [ms RUNS].
  { clear - RUN. revert RUN. generalize (snd (init calls [])) as T0. intros T0. induction (length calls) as [|n IH]; intros RUN.
    - exists (fun _ => 0%nat). intros i Hi. lia.
    - destruct IH as [ms Hms]; [intros i Hi; apply RUN; lia|]. destruct (RUN n ltac:(lia)) as [m Hm].
      exists (upd ms n m). intros i Hi. unfold upd. destruct (Nat.eqb_spec i n) as [->|]; [exact Hm|apply Hms; lia]. }
  destruct (joint_aux sigma (length calls) _ 0 [] (snd (init calls [])) u w ms (fun i => {| at_ := Finished (Password (w i)); part := []; got := u i |}) eq_refl
    ltac:(intros i Hi; split; [apply RUNS, Hi|reflexivity])) as [s [Ls [[m P] U]]].
  assert (TOT : total words = list_sum (map (fun i => length (u i)) (seq 0 (length calls)))).
  { unfold total, u. rewrite <- Lw. clear. induction words as [|p words IH]; [reflexivity|].
    cbn [length seq map]. rewrite <- seq_shift, map_map. change (list_sum (?a :: ?b)) with (a + list_sum b)%nat in *.
    change (list_sum (length (fst p) :: map (fun q => length (fst q)) words)) with (length (fst p) + list_sum (map (fun q => length (fst q)) words))%nat.
    rewrite IH. reflexivity. }
  exists s. split; [congruence|]. split.
  - exists m. cbv zeta in P. destruct P as [P1 P2]. split; [exact P1|]. intros i bs v E.
    assert (Hi : (i < length calls)%nat) by (rewrite <- Lw; apply nth_error_Some; rewrite E; discriminate).
    rewrite NW in E by exact Hi. injection E as <- <-. change (snd (init calls s)) with (snd (init calls [])). rewrite (P2 i Hi). split; reflexivity.
  - intros s' Ls' [m' P']. apply U; [congruence|]. exists m'. cbv zeta. destruct P' as [_ P']. intros i Hi.
    destruct (P' i _ _ (NW i Hi)) as [Q1 Q2]. change (snd (init calls s')) with (snd (init calls [])) in Q1, Q2. split; [unfold finished; rewrite Q1; reflexivity|].
    rewrite Q2. destruct (nth_error calls i) as [c|] eqn:E; [|apply nth_error_None in E; lia]. rewrite (init_nth _ _ _ _ E). reflexivity.
Qed.
Print Assumptions C81_joint.

(** ** A reader that is not safe for concurrent use *)
Lemma usteps_trans n src c1 c2 c3 : usteps n src c1 c2 -> usteps n src c2 c3 -> usteps n src c1 c3.
Proof. intros H1 H2. induction H2; [exact H1|]. eapply usteps_more; [apply IHusteps, H1|assumption]. Qed.
Lemma usteps_one n src c1 c2 : ustep n src c1 c2 -> usteps n src c1 c2.
Proof. intros H. eapply usteps_more; [apply usteps_none|exact H]. Qed.
Definition both (cfg : uconfig) (o : nat) (s : state) : Prop :=
  offset cfg = o /\ (forall i, (i < 2)%nat -> uread cfg i = NoRead /\ at_ (uthread cfg i) = s /\ part (uthread cfg i) = []).
Lemma both_i cfg o s i : both cfg o s -> (i < 2)%nat -> uread cfg i = NoRead /\ at_ (uthread cfg i) = s /\ part (uthread cfg i) = [].
Proof. intros [_ H]. apply H. Qed.
Lemma lockstep src rng s rest s' : chunks rng s rest s' -> forall pre cfg, src = pre ++ rng -> both cfg (length pre) s ->
  exists cfg', usteps 2 src cfg cfg' /\ both cfg' (length src - length rest) s'.
Proof.
  induction 1 as [rng s|rng s s1 rng' s' W C IH|rng s k b max bs rng' s' W L C IH]; intros pre cfg Es B.
  - exists cfg. split; [apply usteps_none|]. rewrite Es, app_length. replace (length pre + length rng - length rng)%nat with (length pre) by lia. exact B.
  - destruct (both_i _ _ _ 0 B ltac:(lia)) as [R0 [A0 P0]]. destruct (both_i _ _ _ 1 B ltac:(lia)) as [R1 [A1 P1]].
    pose proof (u_silent 2 src 0 cfg s1 ltac:(lia) R0 ltac:(rewrite A0; exact W)) as U0. set (c1 := Build_uconfig _ _ _) in U0.
    pose proof (u_silent 2 src 1 c1 s1 ltac:(lia) R1 ltac:(cbn; rewrite A1; exact W)) as U1. set (c2 := Build_uconfig _ _ _) in U1.
    destruct (IH pre c2 Es) as [cfg' [St B']].
    { split; [exact (proj1 B)|]. intros [|[|i]] Hi; [| |lia]; cbn; (split; [assumption|split; [reflexivity|assumption]]). }
    exists cfg'. split; [|exact B']. eapply usteps_trans; [apply usteps_one, U0|]. eapply usteps_trans; [apply usteps_one, U1|exact St].
  - destruct (both_i _ _ _ 0 B ltac:(lia)) as [R0 [A0 P0]]. destruct (both_i _ _ _ 1 B ltac:(lia)) as [R1 [A1 P1]].
    pose proof (wants_pos _ _ _ _ W) as Hk.
    assert (OF : (offset cfg < length src)%nat) by (rewrite (proj1 B), Es, !app_length; lia).
    assert (CP : firstn (k - 0) (skipn (offset cfg) src) = bs).
    { rewrite (proj1 B), Es, skipn_app, skipn_all, Nat.sub_diag, Nat.sub_0_r. cbn [app skipn]. rewrite firstn_app, L, Nat.sub_diag, firstn_O, app_nil_r, <- L. apply firstn_all. }
    pose proof (u_copy 2 src 0 cfg k b max ltac:(lia) R0 ltac:(rewrite A0; exact W) OF) as U0. cbv zeta in U0. rewrite P0 in U0. cbn [length] in U0. rewrite CP in U0.
    set (c1 := Build_uconfig _ _ _) in U0.
    pose proof (u_copy 2 src 1 c1 k b max ltac:(lia) R1 ltac:(cbn; rewrite A1; exact W) OF) as U1. cbv zeta in U1. 
    replace (part (uthread c1 1)) with (@nil Z) in U1 by (cbn; rewrite P1; reflexivity). cbn [length] in U1. change (offset c1) with (offset cfg) in U1. rewrite CP in U1.
    set (c2 := Build_uconfig _ _ _) in U1.
    pose proof (u_load 2 src 0 c2 (length bs) ltac:(lia) eq_refl) as U2. set (c3 := Build_uconfig _ _ _) in U2.
    pose proof (u_load 2 src 1 c3 (length bs) ltac:(lia) eq_refl) as U3. set (c4 := Build_uconfig _ _ _) in U3.
    pose proof (u_store 2 src 0 c4 (offset cfg + length bs) ltac:(lia) eq_refl) as U4. set (c5 := Build_uconfig _ _ _) in U4.
    pose proof (u_store 2 src 1 c5 (offset cfg + length bs) ltac:(lia) eq_refl) as U5. set (c6 := Build_uconfig _ _ _) in U5.
    assert (RC : forall t, at_ t = s -> part t = [] -> at_ (receive t k b max bs) = fed s b max bs /\ part (receive t k b max bs) = []).
    { intros t Ha Hp. unfold receive. rewrite Hp, Ha. cbn [app]. replace (length bs <? k)%nat with false by (symmetry; apply Nat.ltb_ge; lia). split; reflexivity. }
    destruct (IH (pre ++ bs) c6) as [cfg' [St B']].
    { rewrite Es, app_assoc. reflexivity. }
    { split; [cbn [offset c6]; rewrite app_length, (proj1 B); reflexivity|]. intros [|[|i]] Hi; [| |lia]; (split; [reflexivity|]).
      - exact (RC (uthread cfg 0) A0 P0).
      - exact (RC (uthread cfg 1) A1 P1). }
    exists cfg'. split; [|exact B']. 
    eapply usteps_trans; [apply usteps_one, U0|]. eapply usteps_trans; [apply usteps_one, U1|]. eapply usteps_trans; [apply usteps_one, U2|].
    eapply usteps_trans; [apply usteps_one, U3|]. eapply usteps_trans; [apply usteps_one, U4|]. eapply usteps_trans; [apply usteps_one, U5|exact St].
Qed.
Theorem C81_unsafe_reader_refuted c src w rest :
  alone c src (Ok w rest) ->
  exists cfg, usteps 2 src (uinit [c; c]) cfg /\ at_ (uthread cfg 0) = Finished (Password w) /\ at_ (uthread cfg 1) = Finished (Password w) /\
    offset cfg = (length src - length rest)%nat.
Proof.
  intros [F G]. specialize (G F (le_n _)). apply Generate_chunks in G.
  destruct (lockstep src src _ _ _ G [] (uinit [c; c]) eq_refl) as [cfg [St B]].
  { split; [reflexivity|]. intros [|[|i]] Hi; [| |lia]; (split; [reflexivity|split; reflexivity]). }
  exists cfg. split; [exact St|]. destruct (both_i _ _ _ 0 B ltac:(lia)) as [_ [A0 _]]. destruct (both_i _ _ _ 1 B ltac:(lia)) as [_ [A1 _]].
  split; [exact A0|]. split; [exact A1|exact (proj1 B)].
Qed.
Print Assumptions C81_unsafe_reader_refuted.

(** ** The hypotheses are met *)
(** A scheduled run is an execution. *)
Lemma play_steps sigma n : forall m moves read rng T, (forall i, (i < n)%nat -> waits_well (T i)) -> steps n (rng, T) (play sigma n m moves read rng T).
Proof.
  assert (front : forall c1 c2 c3, step n c1 c2 -> steps n c2 c3 -> steps n c1 c3).
  { intros c1 c2 c3 H1 H2. induction H2; [eapply steps_more; [apply steps_none|exact H1]|eapply steps_more; eauto]. }
  induction m as [|m IH]; intros moves read rng T W; cbn [play]; [apply steps_none|].
  destruct (live n T) as [|a l] eqn:L; [apply steps_none|]. rewrite <- L.
  pose proof (live_nth n T (sigma moves read) ltac:(rewrite L; discriminate)) as LN. cbv zeta in LN.
  set (i := nth _ _ _) in *. destruct LN as [Hi _]. destruct (turn rng (T i)) as [[rng' t']|] eqn:E; [|apply steps_none].
  destruct (turn_act _ _ _ _ (W i Hi) E) as [A W']. eapply front; [constructor; [exact Hi|exact A]|]. apply IH.
  intros j Hj. destruct (Nat.eq_dec j i) as [->|N]; [rewrite set_same; exact W'|rewrite set_other by exact N; apply W, Hj].
Qed.
Theorem C81_scheduled sigma calls m rng : steps (length calls) (init calls rng) (play sigma (length calls) m 0 [] rng (snd (init calls rng))).
Proof.
  apply play_steps. intros i Hi. destruct (nth_error calls i) as [c|] eqn:E; [|apply nth_error_None in E; lia].
  pose proof (init_nth calls rng i c E) as Q. cbn [init snd] in Q |- *. rewrite Q. apply fresh_well.
Qed.
Print Assumptions C81_scheduled.
(** Three calls with the default sets, taking turns: two with 3 characters, no repeats, and one that is refused. *)
Definition some_call (n : Z) : call :=
  {| gen := default_generator; len := n; PasswordConc.numDigits := 1; PasswordConc.numSymbols := 0; noUpper := true; allowRepeat := false |}.
Definition some_calls : list call := [some_call 3; some_call 3; some_call 0].
Definition by_turns : nat -> list Z -> nat := fun moves _ => moves.
Definition some_stream : list Z := [0; 25; 31; 30; 1; 24; 0; 1; 9; 10; 8; 3; 0; 2; 1].
Definition some_run : config := play by_turns 3 40 0 [] some_stream (snd (init some_calls some_stream)).
Example C81_case :
  steps 3 (init some_calls some_stream) some_run /\
  map (fun i => at_ (snd some_run i)) [0; 1; 2]%nat =
    [Finished (Password (bytes_of_string "9ba")); Finished (Password (bytes_of_string "3zy")); Finished (Failed ErrExceedsTotalLength)] /\
  map (fun i => got (snd some_run i)) [0; 1; 2]%nat = [[0; 31; 1; 0; 9; 8]; [25; 30; 24; 1; 10; 3; 0]; []] /\ fst some_run = [2; 1] /\
  gen_sets ascii default_generator /\
  alone (some_call 3) [0; 31; 1; 0; 9; 8] (Ok (bytes_of_string "9ba") []) /\ alone (some_call 3) [25; 30; 24; 1; 10; 3; 0] (Ok (bytes_of_string "3zy") []).
Proof.
  assert (St : steps 3 (init some_calls some_stream) some_run) by (apply (C81_scheduled by_turns some_calls 40 some_stream)).
  split; [exact St|]. split; [vm_compute; reflexivity|]. split; [vm_compute; reflexivity|]. split; [vm_compute; reflexivity|]. split; [exact default_ascii|].
  rewrite (surjective_pairing some_run) in St. split.
  - refine (eq_rect _ (fun g => alone _ g _) (C81_as_alone some_calls some_stream _ _ 0 _ (Password (bytes_of_string "9ba")) St eq_refl _) _ _); vm_compute; reflexivity.
  - refine (eq_rect _ (fun g => alone _ g _) (C81_as_alone some_calls some_stream _ _ 1 _ (Password (bytes_of_string "3zy")) St eq_refl _) _ _); vm_compute; reflexivity.
Qed.
