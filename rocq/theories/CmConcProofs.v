(** * Invariants of concurrent searches and Adds. *)
From Coq Require Import List Arith Permutation Lia.
From Verif Require Import GoStr CmModel CmProofs CmIndex CmConc.
Import ListNotations.
Open Scope nat_scope.

(** ** One search while the index changes: each substring was scored by one of the versions vs *)
Definition scored (vs : list CM) (g : str) (r : list (str * nat)) : Prop := exists c, In c vs /\ result_of c g r.
Inductive gpend (vs : list CM) : Worker -> list str -> Prop :=
  | g_idle : gpend vs Idle []
  | g_got g : gpend vs (Got g) [g]
  | g_locked g : gpend vs (Locked g) [g]
  | g_sending g r : scored vs g r -> gpend vs (Sending r) [g]
  | g_ended : gpend vs Ended [].
Record GInv (vs : list CM) (order : list str) (s : State) : Prop := {
  ginv_grams : exists wl gs (seen : list (str * CM)),
      Permutation order (todo s ++ jobs s ++ concat wl ++ gs ++ map fst seen)
      /\ Forall2 (gpend vs) (workers s) wl /\ Forall2 (scored vs) gs (results s)
      /\ length seen = received s
      /\ posmap (acc s) /\ (forall k, val (acc s) k = sum (fun gc => contrib (snd gc) (fst gc) k) seen)
      /\ Forall (fun gc => In (snd gc) vs /\ ~ bad (snd gc) (fst gc)) seen;
  ginv_closed : closed s = true -> todo s = [];
  ginv_ended : In Ended (workers s) -> jobs s = [] /\ closed s = true;
  ginv_owner : forall i g, nth_error (workers s) i = Some (Locked g) -> owner s = Some i;
  ginv_owner2 : forall i, owner s = Some i -> exists g, nth_error (workers s) i = Some (Locked g);
  ginv_workers : workers s <> [];
  ginv_recv : received s <> 0 -> closed s = true;
  ginv_ret : returned s = true -> received s = length order }.

Lemma GInv_start vs order : GInv vs order (start order).
Proof.
  constructor; cbn [start todo closed jobs workers owner results received acc returned]; try discriminate; try congruence.
  - exists (repeat [] 8), [], []. split; [cbn; rewrite !app_nil_r; reflexivity|]. split; [cbn; repeat constructor|]. split; [constructor|]. split; [reflexivity|]. split; [split; constructor|]. split; [reflexivity|constructor].
  - intros H. cbn in H. intuition discriminate.
  - intros i g H. apply nth_error_In in H. cbn in H. intuition discriminate.
Qed.
Lemma scored_mono vs vs' g r : incl vs vs' -> scored vs g r -> scored vs' g r.
Proof. intros I [c [J R]]. exists c. auto. Qed.
Lemma gpend_mono vs vs' w p : incl vs vs' -> gpend vs w p -> gpend vs' w p.
Proof. intros I H. inversion H; subst; constructor. eapply scored_mono; eassumption. Qed.
Lemma Forall2_mono {A B} (R R' : A -> B -> Prop) l l' : (forall a b, R a b -> R' a b) -> Forall2 R l l' -> Forall2 R' l l'.
Proof. intros H. induction 1; constructor; auto. Qed.
Lemma GInv_mono vs vs' order s : incl vs vs' -> GInv vs order s -> GInv vs' order s.
Proof.
  intros I [[wl [gs [seen [P [Fw [Fr [Ls [Ga [Va Gb]]]]]]]]] Ic Ie Io Io2 Iw Irc Irt]. constructor; try assumption.
  exists wl, gs, seen. split; [exact P|]. split; [eapply Forall2_mono; [|exact Fw]; intros ? ?; apply gpend_mono, I|].
  split; [eapply Forall2_mono; [|exact Fr]; intros ? ?; apply scored_mono, I|]. split; [exact Ls|]. split; [exact Ga|]. split; [exact Va|].
  eapply Forall_impl; [|exact Gb]. intros gc [J B]. auto.
Qed.
Lemma gpend_change vs ws wl i w w' p' : Forall2 (gpend vs) ws wl -> nth_error ws i = Some w -> gpend vs w' p' ->
  exists a p b, wl = a ++ p :: b /\ gpend vs w p /\ Forall2 (gpend vs) (set_nth ws i w') (a ++ p' :: b).
Proof.
  intros F. revert i. induction F as [|x y ws wl P F IH]; intros i E W; [destruct i; discriminate|]. destruct i as [|i]; cbn in E.
  - injection E as ->. exists [], y, wl. cbn. auto.
  - destruct (IH i E W) as [a [p [b [-> [H1 H2]]]]]. exists (y :: a), p, b. cbn. auto.
Qed.
Lemma GInv_step vs c order s s' : In c vs -> GInv vs order s -> step c (length order) s (Run s') -> GInv vs order s'.
Proof.
  intros Ic0 I ST. pose proof I as [[wl [gs [seen [P [Fw [Fr [Ls [Ga [Va Gb]]]]]]]]] Ic Ie Io Io2 Iw Irc Irt].
  inversion ST as [g t H H0 E0|H H0 E0|r rs entries H H0 H1 H2 E0|H H0 H1 E0|i g js H H0 E0|i H H0 H1 E0|i g H H0 E0|i g r H H0 H1 E0|i g H H0 H1 E0|i r H H0 E0]; subst; clear ST; constructor; cbn [todo closed jobs workers owner results received acc returned]; auto; try discriminate.
  (* send *)
  - exists wl, gs, seen. split; [|auto 9]. rewrite P, H. permc.
  - intros C. apply Ic in C. congruence.
  - intros E. apply Ie in E. destruct E as [_ C]. apply Ic in C. congruence.
  (* close *)
  - exists wl, gs, seen. rewrite H in P. auto 9.
  - intros E. apply Ie in E. tauto.
  (* receive *)
  - destruct gs as [|g gs]; [rewrite H1 in Fr; inversion Fr|]. rewrite H1 in Fr. inversion Fr as [|? ? ? ? R1 R2]; subst. destruct R1 as [cg [Jg R1]]. exists wl, gs, ((g, cg) :: seen).
    split; [rewrite P; cbn [map fst]; permc|]. split; [exact Fw|]. split; [exact R2|]. split; [cbn; lia|].
    destruct R1 as [G1 [V1 B1]]. pose proof (posmap_perm _ _ (Permutation_sym H2) G1) as G2. split; [apply posmap_merge; [exact Ga|apply G2]|].
    split; [|constructor; [split; assumption|assumption]]. intros k. rewrite val_merge by apply G2. rewrite Va, sum_cons. cbn [fst snd]. rewrite (val_perm r entries) by (auto using Permutation_sym). rewrite V1. lia.
  - intros E. apply Ie in E. tauto.
  - intros R. apply Irt in R. lia.
  (* return *)
  - exists wl, gs, seen. auto 9.
  - intros E. apply Ie in E. tauto.
  (* take *)
  - destruct (gpend_change vs _ _ i Idle (Got g) [g] Fw H (g_got vs g)) as [a [p [b [-> [W1 W2]]]]]. inversion W1; subst. exists (a ++ [g] :: b), gs, seen.
    split; [|auto 9]. rewrite P, H0. permc.
  - intros E. apply set_nth_in in E. destruct E as [E|E]; [discriminate|]. apply Ie in E. destruct E as [E _]. congruence.
  - intros j g' E. rewrite set_nth_nth in E. destruct (Nat.eqb_spec j i) as [->|]; [rewrite H in E; discriminate|]. eapply Io. exact E.
  - intros j E. destruct (Io2 j E) as [g' E']. exists g'. rewrite set_nth_nth. destruct (Nat.eqb_spec j i) as [->|]; [congruence|exact E'].
  - apply set_nth_nil. exact Iw.
  (* end *)
  - destruct (gpend_change vs _ _ i Idle Ended [] Fw H (g_ended vs)) as [a [p [b [-> [W1 W2]]]]]. inversion W1; subst. exists (a ++ [] :: b), gs, seen.
    split; [rewrite P, H0; reflexivity|auto 9].
  - intros j g' E. rewrite set_nth_nth in E. destruct (Nat.eqb_spec j i) as [->|]; [rewrite H in E; discriminate|]. eapply Io. exact E.
  - intros j E. destruct (Io2 j E) as [g' E']. exists g'. rewrite set_nth_nth. destruct (Nat.eqb_spec j i) as [->|]; [congruence|exact E'].
  - apply set_nth_nil. exact Iw.
  (* lock *)
  - destruct (gpend_change vs _ _ i (Got g) (Locked g) [g] Fw H (g_locked vs g)) as [a [p [b [-> [W1 W2]]]]]. inversion W1; subst. exists (a ++ [g] :: b), gs, seen. auto 9.
  - intros E. apply set_nth_in in E. destruct E as [E|E]; [discriminate|]. apply Ie. exact E.
  - intros j g' E. rewrite set_nth_nth in E. destruct (Nat.eqb_spec j i) as [->|]; [reflexivity|]. apply Io in E. congruence.
  - intros j E. injection E as <-. exists g. rewrite set_nth_nth, Nat.eqb_refl, H. reflexivity.
  - apply set_nth_nil. exact Iw.
  (* unlock *)
  - destruct (gpend_change vs _ _ i (Locked g) (Sending r) [g] Fw H (g_sending vs g r (ex_intro _ c (conj Ic0 (work_ok _ _ _ H1))))) as [a [p [b [-> [W1 W2]]]]]. inversion W1; subst. exists (a ++ [g] :: b), gs, seen. auto 9.
  - intros E. apply set_nth_in in E. destruct E as [E|E]; [discriminate|]. apply Ie. exact E.
  - intros j g' E. rewrite set_nth_nth in E. destruct (Nat.eqb_spec j i) as [->|Ne]; [rewrite H in E; discriminate|]. apply Io in E. congruence.
  - apply set_nth_nil. exact Iw.
  (* send result *)
  - destruct (gpend_change vs _ _ i (Sending r) Idle [] Fw H (g_idle vs)) as [a [p [b [-> [W1 W2]]]]]. inversion W1 as [| | |g r' R|]; subst. exists (a ++ [] :: b), (gs ++ [g]), seen.
    split; [|split; [exact W2|split; [apply Forall2_app; [exact Fr|constructor; [exact R|constructor]]|auto]]].
    rewrite P. permc.
  - intros E. apply set_nth_in in E. destruct E as [E|E]; [discriminate|]. apply Ie. exact E.
  - intros j g' E. rewrite set_nth_nth in E. destruct (Nat.eqb_spec j i) as [->|Ne]; [rewrite H in E; discriminate|]. apply Io in E. congruence.
  - intros j E. destruct (Io2 j E) as [g' E']. exists g'. rewrite set_nth_nth. destruct (Nat.eqb_spec j i) as [->|]; [congruence|exact E'].
  - apply set_nth_nil. exact Iw.
Qed.
(** A search that is not finished can go on; only to take the mutex may it have to wait. *)
Lemma gprogress vs cm order s : GInv vs order s -> finished s \/ exists o, step cm (length order) s o.
Proof.
  intros [[wl [gs [seen [P [Fw [Fr [Ls [Ga [Va Gb]]]]]]]]] Ic Ie Io Io2 Iw Irc Irt].
  assert (Len : length order = length (todo s) + length (jobs s) + length (concat wl) + length (results s) + received s).
  { rewrite (Permutation_length P), !app_length, (Forall2_length' _ _ _ Fr), map_length. lia. }
  destruct (todo s) as [|g t] eqn:Et.
  2:{ right. eexists. eapply s_send; [exact Et|]. cbn [length] in Len. lia. }
  destruct (closed s) eqn:Ec; [|right; eexists; apply s_close; assumption].
  destruct (find_worker (fun w => match w with Sending _ => true | _ => false end) (workers s)) as [[i [w [E W]]]|NS].
  { destruct w as [| | |r|]; try discriminate. right. eexists. eapply w_send; [exact E|].
    assert (1 <= length (concat wl)); [|cbn [length] in Len; lia]. destruct (gpend_change vs _ _ i _ Idle [] Fw E (g_idle vs)) as [a [p [b [-> [W1 _]]]]]. inversion W1; subst. rewrite concat_app, app_length. cbn. lia. }
  destruct (owner s) as [i|] eqn:Eo.
  { destruct (Io2 i eq_refl) as [g E]. right. destruct (work_total cm g) as [[r|] [W _]]; eexists; [eapply w_unlock|eapply w_panic]; eassumption. }
  destruct (find_worker (fun w => match w with Got _ => true | _ => false end) (workers s)) as [[i [w [E W]]]|NG].
  { destruct w as [|g| | |]; try discriminate. right. eexists. eapply w_lock; eassumption. }
  assert (WS : Forall (fun w => w = Idle \/ w = Ended) (workers s)).
  { apply Forall_forall. intros w Hw. rewrite Forall_forall in NS, NG. specialize (NS w Hw). specialize (NG w Hw). destruct w; auto; try discriminate.
    apply In_nth_error in Hw. destruct Hw as [i Hi]. apply Io in Hi. congruence. }
  destruct (find_worker (fun w => match w with Idle => true | _ => false end) (workers s)) as [[i [w [E W]]]|NI].
  { destruct w; try discriminate. right. destruct (jobs s) as [|g js] eqn:Ej; eexists; [eapply w_end|eapply w_take]; eassumption. }
  assert (AE : Forall (fun w => w = Ended) (workers s)).
  { apply Forall_forall. intros w Hw. rewrite Forall_forall in WS, NI. destruct (WS w Hw) as [->| ->]; [|reflexivity]. specialize (NI _ Hw). discriminate. }
  assert (EJ : jobs s = []) by (apply Ie; destruct (workers s) as [|w ws]; [congruence|]; inversion AE; subst; left; reflexivity).
  assert (EW : length (concat wl) = 0).
  { clear - Fw AE. induction Fw as [|w l ws wl W Fw IH]; [reflexivity|]. inversion AE; subst. cbn [concat]. rewrite app_length, IH by assumption. inversion W. reflexivity. }
  rewrite EJ in Len. cbn [length] in Len.
  destruct (returned s) eqn:Er; [left; split; assumption|]. right.
  destruct (results s) as [|r rs] eqn:Es.
  - eexists. apply s_return; [exact Ec|cbn [length] in Len; lia|exact Er].
  - eexists. eapply (s_receive cm _ s r rs r); [exact Ec|cbn [length] in Len; lia|exact Es|reflexivity].
Qed.

(** What a finished search found. *)
Lemma GInv_returned vs order s : GInv vs order s -> returned s = true ->
  exists parts : list (str * CM), Permutation (map fst parts) order /\ Forall (fun gc => In (snd gc) vs /\ ~ bad (snd gc) (fst gc)) parts
    /\ posmap (acc s) /\ forall k, val (acc s) k = sum (fun gc => contrib (snd gc) (fst gc) k) parts.
Proof.
  intros [[wl [gs [seen [P [Fw [Fr [Ls [Ga [Va Gb]]]]]]]]] _ _ _ _ _ _ Irt] R. exists seen. split; [|auto].
  pose proof (Permutation_length P) as L. rewrite !app_length, map_length, Ls, (Irt R) in L.
  destruct (todo s); [|cbn in L; lia]. destruct (jobs s); [|cbn in L; lia]. destruct (concat wl); [|cbn in L; lia]. destruct gs; [|cbn in L; lia].
  apply Permutation_sym. exact P.
Qed.
(** The worker that crashes had a substring of the query. *)
Lemma GInv_crash vs cm order s : GInv vs order s -> step cm (length order) s Crash -> exists g, In g order /\ work cm g None.
Proof.
  intros [[wl [gs [seen [P [Fw _]]]]] _ _ _ _ _ _ _] ST. inversion ST as [| | | | | | | |i g H1 H2 H3 E|]; subst. exists g. split; [|exact H3].
  destruct (gpend_change vs _ _ i (Locked g) Ended [] Fw H1 (g_ended vs)) as [a [p [b [-> [W _]]]]]. inversion W; subst.
  apply (Permutation_in _ (Permutation_sym P)). rewrite concat_app. cbn [concat]. rewrite !in_app_iff. right; right; left. right. left. left. reflexivity.
Qed.
Lemma owner_step cm cap s s' : step cm cap s (Run s') -> owner s' = owner s \/ (owner s = None /\ owner s' <> None) \/ (owner s <> None /\ owner s' = None).
Proof. intros ST. inversion ST; subst; cbn [owner]; auto; right; [left|right]; split; congruence. Qed.

(** ** The world *)
Definition alive (w : World) (p : nat) : Prop :=
  (exists q order since s, nth_error (procs w) p = Some (Searching q order since s) /\ owner s <> None) \/ exists ws, nth_error (procs w) p = Some (AddLocked ws).
Record WInv (sizes : list nat) (w : World) : Prop := {
  w_sizes : SubstringSizes (index w) = sizes;
  w_search : forall p q order since s, nth_error (procs w) p = Some (Searching q order since s) ->
    Permutation order (splitWord sizes q) /\ since <= length (history w) /\ GInv (skipn since (versions w)) order s;
  w_lock : forall p, alive w p <-> lock w = Some p }.

Lemma nth_set {A} (l : list A) p x y j : nth_error (set_nth l p x) j = Some y -> (j = p /\ y = x) \/ (j <> p /\ nth_error l j = Some y).
Proof.
  rewrite set_nth_nth. destruct (Nat.eqb_spec j p) as [->|N]; [|auto]. destruct (nth_error l p); [|discriminate]. intros E. injection E as <-. auto.
Qed.
Lemma set_same {A} (l : list A) p x y : nth_error l p = Some y -> nth_error (set_nth l p x) p = Some x.
Proof. intros E. rewrite set_nth_nth, Nat.eqb_refl, E. reflexivity. Qed.
Lemma set_other {A} (l : list A) p x j : j <> p -> nth_error (set_nth l p x) j = nth_error l j.
Proof. intros N. rewrite set_nth_nth. destruct (Nat.eqb_spec j p); [contradiction|reflexivity]. Qed.
Lemma current_in w n : n <= length (history w) -> In (index w) (skipn n (versions w)).
Proof. intros L. unfold versions. rewrite skipn_app. replace (n - length (history w)) with 0 by lia. apply in_or_app. right. left. reflexivity. Qed.

Lemma WInv_begin cm calls : WInv (SubstringSizes cm) (begin cm calls).
Proof.
  constructor; cbn [begin index procs lock]; [reflexivity| |].
  - intros p q order since s E. rewrite nth_error_map in E. destruct (nth_error calls p) as [[|]|]; discriminate E.
  - intros p. split; [|discriminate]. intros [[q [o [n [s [E _]]]]]|[ws E]]; cbn [procs begin] in E; rewrite nth_error_map in E; destruct (nth_error calls p) as [[|]|]; discriminate E.
Qed.
Lemma WInv_step lower sizes w w' : WInv sizes w -> wstep lower w (Some w') -> WInv sizes w'.
Proof.
  intros [Sz Se Lk] ST. inversion ST as [p q order E P Q|p q order since s s' E T O Q|p q order since s s' E T O O' L Q|p q order since s s' E T O O' Q|?|p ws E L Q|p ws cm' E A Q]; subst; clear ST.
  (* call *)
  - constructor; cbn [index procs lock history]; [reflexivity| |].
    + intros j q' o' n' s' H. apply nth_set in H. destruct H as [[-> H]|[N H]]; [|exact (Se _ _ _ _ _ H)]. injection H as -> -> -> ->. split; [exact P|]. split; [lia|]. apply GInv_start.
    + intros j. rewrite <- Lk. destruct (Nat.eq_dec j p) as [->|N].
      * split; (intros [[q' [o' [n' [s' [H Ow]]]]]|[ws H]]; cbn [procs] in H; [|]); try (rewrite (set_same _ _ _ _ E) in H); try congruence. injection H as <- <- <- <-. contradiction Ow. reflexivity.
      * unfold alive. cbn [procs]. rewrite set_other by exact N. reflexivity.
  (* free *)
  - constructor; cbn [index procs lock history]; [reflexivity| |].
    + intros j q' o' n' s1 H. apply nth_set in H. destruct H as [[-> H]|[N H]]; [|exact (Se _ _ _ _ _ H)]. injection H as -> -> -> ->. destruct (Se _ _ _ _ _ E) as [P [Ln G]]. split; [exact P|]. split; [exact Ln|].
      exact (GInv_step _ (index w) order s s' (current_in w since Ln) G T).
    + intros j. rewrite <- Lk. destruct (Nat.eq_dec j p) as [->|N].
      * split; (intros [[q' [o' [n' [s1 [H Ow]]]]]|[ws H]]; cbn [procs] in H; [|]); try (rewrite (set_same _ _ _ _ E) in H); try congruence; left.
        -- injection H as -> -> -> ->. exists q', o', n', s. split; [exact E|congruence].
        -- rewrite E in H. injection H as -> -> -> ->. exists q', o', n', s'. cbn [procs]. rewrite (set_same _ _ _ _ E). split; [reflexivity|congruence].
      * unfold alive. cbn [procs]. rewrite set_other by exact N. reflexivity.
  (* lock *)
  - constructor; cbn [index procs lock history]; [reflexivity| |].
    + intros j q' o' n' s1 H. apply nth_set in H. destruct H as [[-> H]|[N H]]; [|exact (Se _ _ _ _ _ H)]. injection H as -> -> -> ->. destruct (Se _ _ _ _ _ E) as [P [Ln G]]. split; [exact P|]. split; [exact Ln|].
      exact (GInv_step _ (index w) order s s' (current_in w since Ln) G T).
    + intros j. split.
      * intros H. destruct (Nat.eq_dec j p) as [->|N]; [reflexivity|]. exfalso. enough (lock w = Some j) by congruence. apply Lk. unfold alive in *. cbn [procs] in H. rewrite set_other in H by exact N. exact H.
      * intros H. injection H as ->. left. exists q, order, since, s'. cbn [procs]. rewrite (set_same _ _ _ _ E). auto.
  (* unlock *)
  - assert (Lp : lock w = Some p) by (apply Lk; left; exists q, order, since, s; auto). constructor; cbn [index procs lock history]; [reflexivity| |].
    + intros j q' o' n' s1 H. apply nth_set in H. destruct H as [[-> H]|[N H]]; [|exact (Se _ _ _ _ _ H)]. injection H as -> -> -> ->. destruct (Se _ _ _ _ _ E) as [P [Ln G]]. split; [exact P|]. split; [exact Ln|].
      exact (GInv_step _ (index w) order s s' (current_in w since Ln) G T).
    + intros j. split; [|discriminate]. intros H. exfalso. destruct (Nat.eq_dec j p) as [->|N].
      * destruct H as [[q' [o' [n' [s1 [H Ow]]]]]|[ws H]]; cbn [procs] in H; rewrite (set_same _ _ _ _ E) in H; [|discriminate]. injection H as -> -> -> ->. contradiction.
      * enough (lock w = Some j) by congruence. apply Lk. unfold alive in *. cbn [procs] in H. rewrite set_other in H by exact N. exact H.
  (* Add locks *)
  - constructor; cbn [index procs lock history]; [reflexivity| |].
    + intros j q' o' n' s1 H. apply nth_set in H. destruct H as [[-> H]|[N H]]; [discriminate|exact (Se _ _ _ _ _ H)].
    + intros j. split.
      * intros H. destruct (Nat.eq_dec j p) as [->|N]; [reflexivity|]. exfalso. enough (lock w = Some j) by congruence. apply Lk. unfold alive in *. cbn [procs] in H. rewrite set_other in H by exact N. exact H.
      * intros H. injection H as ->. right. exists ws. cbn [procs]. apply (set_same _ _ _ _ E).
  (* Add unlocks *)
  - assert (Lp : lock w = Some p) by (apply Lk; right; exists ws; exact E). constructor; cbn [index procs lock history].
    + exact (Adds_sizes _ _ _ _ _ A).
    + intros j q' o' n' s1 H. apply nth_set in H. destruct H as [[-> H]|[N H]]; [discriminate|]. destruct (Se _ _ _ _ _ H) as [P [Ln G]]. split; [exact P|].
      split; [rewrite app_length; cbn; lia|]. eapply GInv_mono; [|exact G]. unfold versions. cbn [history index]. intros c Hc. rewrite (skipn_app n' (history w ++ [index w])). apply in_or_app. left. exact Hc.
    + intros j. split; [|discriminate]. intros H. exfalso. destruct (Nat.eq_dec j p) as [->|N].
      * destruct H as [[q' [o' [n' [s1 [H Ow]]]]]|[ws' H]]; cbn [procs] in H; rewrite (set_same _ _ _ _ E) in H; discriminate.
      * enough (lock w = Some j) by congruence. apply Lk. unfold alive in *. cbn [procs] in H. rewrite set_other in H by exact N. exact H.
Qed.
Lemma WInv_runs lower cm calls k w : wruns lower k (begin cm calls) w -> WInv (SubstringSizes cm) w.
Proof. intros R. remember (begin cm calls) as w0 eqn:E. induction R; subst; [apply WInv_begin|]. eapply WInv_step; [apply IHR; reflexivity|eassumption]. Qed.

(** ** Termination *)
Definition pmeasure (sizes : list nat) (p : Proc) : nat :=
  match p with Query q => 6 * length (splitWord sizes q) + 11 | Searching _ _ _ s => measure s | Adding _ => 2 | AddLocked _ => 1 | Added _ => 0 end.
Lemma sum_set {A} (f : A -> nat) l p x y : nth_error l p = Some y -> sum f (set_nth l p x) + f y = sum f l + f x.
Proof. intros E. destruct (set_nth_split l p x y E) as [a [b [-> [-> _]]]]. rewrite !sum_app, !sum_cons. lia. Qed.
Lemma wmeasure_step lower sizes w w' : WInv sizes w -> wstep lower w (Some w') -> sum (pmeasure sizes) (procs w') < sum (pmeasure sizes) (procs w).
Proof.
  intros [Sz Se Lk] ST. inversion ST as [p q order E P Q|p q order since s s' E T O Q|p q order since s s' E T O O' L Q|p q order since s s' E T O O' Q|?|p ws E L Q|p ws cm' E A Q]; subst; clear ST; cbn [procs];
    match goal with |- sum ?f (set_nth _ ?p ?x) < _ => pose proof (sum_set f (procs w) p x _ E) as M end; cbn [pmeasure] in M; try lia.
  - rewrite measure_start, (Permutation_length P) in M. lia.
  - apply measure_step in T. lia.
  - apply measure_step in T. lia.
  - apply measure_step in T. lia.
Qed.

(** ** Progress *)
Lemma Adds_total lower ws : forall cm i, exists cm', Adds lower cm i ws cm'.
Proof.
  induction ws as [|s ws IH]; intros cm i; [exists cm; constructor|]. destruct (IH (add_word cm i s (splitWord (SubstringSizes cm) (lower s))) (S i)) as [cm' A]. exists cm'. econstructor; [apply Permutation_refl|exact A].
Qed.
Definition done (p : Proc) : Prop := match p with Query _ | Adding _ | AddLocked _ => False | Searching _ _ _ s => finished s | Added _ => True end.
Lemma wprogress lower sizes w : WInv sizes w -> (forall p x, nth_error (procs w) p = Some x -> done x) \/ exists o, wstep lower w o.
Proof.
  intros [Sz Se Lk]. destruct (lock w) as [p|] eqn:L.
  - right. destruct (proj2 (Lk p) eq_refl) as [[q [order [n [s [E O]]]]]|[ws E]].
    + destruct (owner s) as [i|] eqn:Eo; [|congruence]. destruct (Se _ _ _ _ _ E) as [_ [_ G]]. destruct (ginv_owner2 _ _ _ G i Eo) as [g H].
      destruct (work_total (index w) g) as [[r|] [W _]].
      * eexists. eapply (c_unlock lower w p q order n s); [exact E|eapply w_unlock; eassumption|congruence|reflexivity].
      * exists None. eapply (c_crash lower w p q order n s); [exact E|eapply w_panic; eassumption].
    + destruct (Adds_total lower ws (index w) 0) as [cm' A]. eexists. eapply a_unlock; eassumption.
  - assert (D : forall p x, nth_error (procs w) p = Some x -> done x \/ exists o, wstep lower w o).
    { intros p x E. destruct x as [q|q order n s|ws|ws|ws].
      - right. eexists. eapply c_call; [exact E|apply Permutation_refl].
      - destruct (Se _ _ _ _ _ E) as [_ [_ G]]. destruct (gprogress _ (index w) _ _ G) as [F|[[s'|] T]]; [left; exact F| |right; exists None; eapply c_crash; eassumption].
        right. destruct (owner_step _ _ _ _ T) as [O|[[O O']|[O O']]].
        + eexists. eapply c_free; eassumption.
        + eexists. eapply c_lock; eassumption.
        + eexists. eapply c_unlock; eassumption.
      - right. eexists. eapply a_lock; eassumption.
      - exfalso. enough (lock w = Some p) by congruence. rewrite L. apply Lk. right. exists ws. exact E.
      - left. exact I. }
    assert (X : forall l, (forall x, In x l -> done x \/ exists o, wstep lower w o) -> (forall x, In x l -> done x) \/ exists o, wstep lower w o).
    { induction l as [|x l IH]; intros H; [left; intros ? []|]. destruct (H x (or_introl eq_refl)) as [H1|H1]; [|right; exact H1]. destruct IH as [H2|H2]; [intros y Hy; apply H; right; exact Hy| |right; exact H2].
      left. intros y [<-|Hy]; auto. }
    destruct (X (procs w)) as [H|H]; [|left; intros p x E; apply H; eapply nth_error_In; exact E|right; exact H].
    intros x Hx. apply In_nth_error in Hx. destruct Hx as [p E]. exact (D p x E).
Qed.
