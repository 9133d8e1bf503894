(** * C69: matches do not disturb one another, although they share pools of buffers. *)
From Coq Require Import String.
From Coq Require Import ZArith Arith List Bool Lia.
From Verif Require Import Utf8 GoStr GlobMatch GlobCompile GlobUtil GlobMem GlobMemSpec GlobMemLogic GlobMemSlices GlobMemRefine.
Import ListNotations.
Open Scope nat_scope.

Definition inv (jobs : list (Matcher * str)) (c : Store * list (prog bool)) : Prop :=
  exists H, agree (fst c) H /\ length (snd c) = length jobs /\
    forall t g s p, nth_error jobs t = Some (g, s) -> nth_error (snd c) t = Some p -> wp p (H t) (fun r _ => r = Match g s).
Lemma inv_start jobs : inv jobs (calls jobs).
Proof.
  exists (fun _ _ => None). split; [|split].
  - constructor; cbn; try discriminate; try contradiction; auto; [constructor|]. exists 0. auto.
  - cbn. apply map_length.
  - intros t g s p Ej Ep. cbn [calls snd] in Ep. rewrite nth_error_map, Ej in Ep. injection Ep as <-. cbn [fst snd]. unfold matching. apply (rf_match (sem g) (msem g) (msem_ok g)). intros h' _. reflexivity.
Qed.
Lemma inv_step jobs c c' : inv jobs c -> steps c c' -> inv jobs c'.
Proof.
  intros [H [AG [L W]]] St. destruct St as [m m' before p p' after St]. cbn [fst snd] in *. set (t := length before).
  assert (Et : nth_error (before ++ p :: after) t = Some p) by (unfold t; rewrite nth_error_app2, Nat.sub_diag by lia; reflexivity).
  destruct (nth_error jobs t) as [[g s]|] eqn:Ej.
  - destruct (step_ok m p m' p' H t _ AG (W t g s p Ej Et) St) as [h' [AG' W']]. exists (turn H t h'). cbn [fst snd]. split; [exact AG'|]. split; [rewrite <- L, !app_length; reflexivity|].
    intros u g' s' q Eu Eq. destruct (Nat.eq_dec u t) as [->|N].
    + unfold t in Eq at 1. rewrite nth_error_app2, Nat.sub_diag in Eq by lia. injection Eq as <-. rewrite Ej in Eu. injection Eu as <- <-. rewrite turn_same. exact W'.
    + rewrite turn_other by exact N. apply (W u g' s' q Eu). rewrite <- Eq. destruct (Nat.lt_ge_cases u t) as [Lt|Ge].
      * rewrite !nth_error_app1 by (unfold t in Lt; lia). reflexivity.
      * unfold t in *. rewrite !nth_error_app2 by lia. destruct (u - length before) as [|k] eqn:Z; [lia|]. reflexivity.
  - exfalso. apply nth_error_None in Ej. rewrite <- L in Ej. unfold t in Ej. rewrite app_length in Ej. cbn in Ej. lia.
Qed.
Lemma inv_reaches jobs c : reaches (calls jobs) c -> inv jobs c.
Proof. intros R. induction R as [|c1 c2 R IH St]; [apply inv_start|exact (inv_step jobs c1 c2 IH St)]. Qed.
Lemma inv_thread jobs m ps t p : inv jobs (m, ps) -> nth_error ps t = Some p -> exists g s, nth_error jobs t = Some (g, s).
Proof.
  intros [H [_ [L _]]] E. cbn [snd] in L. destruct (nth_error jobs t) as [[g s]|] eqn:Ej; [eauto|]. apply nth_error_None in Ej. assert (X : nth_error ps t <> None) by congruence. apply nth_error_Some in X. lia.
Qed.

(** However the steps of the calls interleave and whatever the pools hand out, a call that has returned gives the answer it gives on its own, and a call
    crashes only if it crashes on its own. *)
Theorem C69_concurrent : forall jobs m ps t g s, reaches (calls jobs) (m, ps) -> nth_error jobs t = Some (g, s) ->
  (forall b, nth_error ps t = Some (Ret b) -> Match g s = Some b) /\ (nth_error ps t = Some Panic -> Match g s = None).
Proof.
  intros jobs m ps t g s R Ej. destruct (inv_reaches jobs _ R) as [H [_ [_ W]]]. split; [intros b Eb|intros Eb]; specialize (W t g s _ Ej Eb); cbn in W; symmetry; exact W.
Qed.
Print Assumptions C69_concurrent.
(** No call waits for another: until it has finished it can always go on. *)
Theorem C69_progress : forall jobs m ps t p, reaches (calls jobs) (m, ps) -> nth_error ps t = Some p -> finished p \/ exists m' p', step m p m' p'.
Proof.
  intros jobs m ps t p R Ep. pose proof (inv_reaches jobs _ R) as Iv. destruct (inv_thread jobs m ps t p Iv Ep) as [g [s Ej]]. destruct Iv as [H [AG [_ W]]]. specialize (W t g s p Ej Ep). cbn [fst] in AG.
  assert (Lk : forall b a, look (H t) b = Some a -> arrays m b = Some a) by (intros [n|k] a E; [injection E as <-; apply (ag_static m H AG)|exact (ag_own m H AG t k a E)]).
  destruct (ag_room m H AG) as [n Room]. pose proof (Room n (le_n n)) as Fr.
  destruct p as [b| |init k|pool k|pool b k|b k|b i k|b i v k]; [left; exact I|left; exact I|right..].
  - exists (put_array m (Dyn n) (init ++ [])), (k (Dyn n)). apply st_alloc, Fr.
  - destruct W as [In _]. eexists _, _. apply (st_new m pool k n In Fr).
  - eexists _, _. apply st_put.
  - destruct W as [a [E _]]. eexists _, _. apply (st_cap m b k a), Lk, E.
  - destruct W as [a [v [E [N _]]]]. eexists _, _. apply (st_read m b i k a v); [apply Lk, E|exact N].
  - destruct W as [j [a [-> [E [L _]]]]]. eexists _, _. apply (st_write m (Dyn j) i v k a); [exact (ag_own m H AG t j a E)|exact L].
Qed.
Print Assumptions C69_progress.
(** No schedule goes on for ever. *)
Lemma prog_acc {A} (p : prog A) : Acc (fun p' p => exists m m', step m p m' p') p.
Proof.
  assert (P : Acc (fun p' p : prog A => exists m m', step m p m' p') Panic) by (constructor; intros y [m [m' St]]; inversion St).
  induction p as [a| |init k IH|pool k IH|pool b k IH|b k IH|b i k IH|b i v k IH]; constructor; intros y [m [m' St]]; inversion St; subst; auto.
Qed.
Lemma prog_wf {A} : well_founded (fun p' p : prog A => exists m m', step m p m' p').
Proof. intros p. apply prog_acc. Qed.
Lemma steps_inv {A} m (ps : list (prog A)) m' ps' : steps (m, ps) (m', ps') -> exists before p p' after, ps = before ++ p :: after /\ ps' = before ++ p' :: after /\ step m p m' p'.
Proof. intros St. inversion St; subst. eexists _, _, _, _. split; [reflexivity|]. split; [reflexivity|assumption]. Qed.
Lemma list_acc {A} (ps : list (prog A)) : Acc (fun ps' ps => exists m m', steps (m, ps) (m', ps')) ps.
Proof.
  induction ps as [|p ps IH].
  - constructor. intros y [m [m' St]]. apply steps_inv in St. destruct St as [before [p [p' [after [E _]]]]]. destruct before; discriminate.
  - revert ps IH. induction (prog_acc p) as [p _ IHp]. intros ps Acc_ps. pose proof Acc_ps as Acc0. induction Acc_ps as [ps Hps IHps]. constructor. intros y [m [m' St]]. apply steps_inv in St. destruct St as [before [q [q' [after [E1 [-> St1]]]]]].
    destruct before as [|p0 before]; cbn in *.
    + injection E1 as <- <-. apply IHp; [eauto|exact Acc0].
    + injection E1 as <- ->. assert (T : exists a b, steps (a, before ++ q :: after) (b, before ++ q' :: after)) by (exists m, m'; constructor; exact St1). apply IHps; [exact T|]. apply Hps. exact T.
Qed.
Theorem C69_ends : forall jobs (run : nat -> Store * list (prog bool)), run 0 = calls jobs -> ~ (forall n, steps (run n) (run (S n))).
Proof.
  intros jobs run _ St. assert (G : forall ps, Acc (fun ps' ps => exists m m', steps (m, ps) (m', ps')) ps -> forall n, snd (run n) = ps -> False).
  { intros ps Ac. induction Ac as [ps _ IH]. intros n E. apply (IH (snd (run (S n)))) with (n := S n); [|reflexivity]. subst ps. exists (fst (run n)), (fst (run (S n))). rewrite <- !surjective_pairing. apply St. }
  exact (G _ (list_acc _) 0 eq_refl).
Qed.
Print Assumptions C69_ends.
(** No data races: while one call is about to change an array or to give it back, no other call uses that array; an array in use lies in no pool. *)
Lemma touched_owned p h (Q : option bool -> hp -> Prop) b : wp p h Q -> touches p b -> match b with Static _ => ~ changes p b | Dyn k => h k <> None end.
Proof.
  destruct p as [x| |init k|pool k|pool c k|c k|c i k|c i v k]; cbn [wp touches changes]; try contradiction; intros W <-.
  - destruct W as [i [a [-> [E _]]]]. congruence.
  - destruct W as [a [E _]]. destruct c; cbn in *; [auto|congruence].
  - destruct W as [a [x [E _]]]. destruct c; cbn in *; [auto|congruence].
  - destruct W as [j [a [-> [E _]]]]. congruence.
Qed.
Theorem C69_race_free : forall jobs m ps t p b, reaches (calls jobs) (m, ps) -> nth_error ps t = Some p -> touches p b ->
  ~ pooled m b /\ (changes p b -> forall u q, u <> t -> nth_error ps u = Some q -> ~ touches q b).
Proof.
  intros jobs m ps t p b R Ep Tp. pose proof (inv_reaches jobs _ R) as Iv. destruct (inv_thread jobs m ps t p Iv Ep) as [g [s Ej]].
  assert (Th : forall u q, nth_error ps u = Some q -> exists g s, nth_error jobs u = Some (g, s)) by (intros u q E; exact (inv_thread jobs m ps u q Iv E)).
  destruct Iv as [H [AG [_ W]]]. cbn [fst snd] in *. pose proof (touched_owned _ _ _ b (W t g s p Ej Ep) Tp) as O. split.
  - intros [pool I]. destruct (ag_pool m H AG pool b I) as [k [a [-> [_ N]]]]. apply O, N.
  - intros Cp u q Nu Eq Tq. destruct (Th u q Eq) as [g' [s' Eu]]. pose proof (touched_owned _ _ _ b (W u g' s' q Eu Eq) Tq) as O'. destruct b as [n|k]; [exact (O Cp)|].
    destruct (H t k) as [x|] eqn:E1; [|congruence]. destruct (H u k) as [y|] eqn:E2; [|congruence]. apply Nu. exact (ag_apart m H AG u t k y x E2 E1).
Qed.
Print Assumptions C69_race_free.
(** A buffer lies in the pools at most once, so two calls never get the same one. *)
Theorem C69_pooled_once : forall jobs m ps, reaches (calls jobs) (m, ps) -> NoDup (map snd (pools m)).
Proof. intros jobs m ps R. destruct (inv_reaches jobs _ R) as [H [AG _]]. exact (ag_once m H AG). Qed.
Print Assumptions C69_pooled_once.
(** The fixed segments, shared by all globs, keep their value and never get into a pool. *)
Theorem C69_constants : forall jobs m ps n, reaches (calls jobs) (m, ps) -> arrays m (Static n) = Some [n] /\ ~ pooled m (Static n).
Proof.
  intros jobs m ps n R. destruct (inv_reaches jobs _ R) as [H [AG _]]. split; [exact (ag_static m H AG n)|]. intros [pool I]. destruct (ag_pool m H AG pool (Static n) I) as [k [a [E _]]]. discriminate.
Qed.
Print Assumptions C69_constants.

(** ** A run *)
(** A scheduler, to show concrete runs: the threads named in turn each take a step (the last element put in a pool is handed out first; new arrays are
    numbered; append makes arrays as large as needed). *)
Fixpoint from_pool (pool : Z) (ps : list (Z * bid)) : option (list (Z * bid) * bid * list (Z * bid)) :=
  match ps with
  | [] => None
  | (p, b) :: t => if Z.eq_dec p pool then Some ([], b, t) else match from_pool pool t with Some (x, b', y) => Some ((p, b) :: x, b', y) | None => None end
  end.
Lemma from_pool_ok pool ps x b y : from_pool pool ps = Some (x, b, y) -> ps = x ++ (pool, b) :: y.
Proof.
  revert x b y. induction ps as [|[p c] ps IH]; intros x b y; cbn; [discriminate|]. destruct (Z.eq_dec p pool) as [->|N]; [intros E; injection E as <- <- <-; reflexivity|].
  destruct (from_pool pool ps) as [[[x' b'] y']|]; [|discriminate]. intros E. injection E as <- <- <-. cbn. f_equal. apply IH. reflexivity.
Qed.
Definition exec {A} (m : Store) (new : nat) (p : prog A) : option (Store * nat * prog A) :=
  match p with
  | Ret _ | Panic => None
  | Alloc init k => match arrays m (Dyn new) with None => Some (put_array m (Dyn new) (init ++ []), S new, k (Dyn new)) | Some _ => None end
  | Get pool k =>
      match from_pool pool (pools m) with
      | Some (x, b, y) => Some (with_pools m (x ++ y), new, k b)
      | None => if in_dec Z.eq_dec pool initialised then
                  match arrays m (Dyn new) with None => Some (put_array m (Dyn new) (repeat 0 (Z.to_nat (pool + 1))), S new, k (Dyn new)) | Some _ => None end
                else None
      end
  | Put pool b k => Some (with_pools m ((pool, b) :: pools m), new, k)
  | Cap b k => match arrays m b with Some a => Some (m, new, k (length a)) | None => None end
  | Read b i k => match arrays m b with Some a => match nth_error a i with Some v => Some (m, new, k v) | None => None end | None => None end
  | Write b i v k => match arrays m b with Some a => if lt_dec i (length a) then Some (put_array m b (upd a i v), new, k) else None | None => None end
  end.
Lemma exec_ok {A} m new (p : prog A) m' new' p' : exec m new p = Some (m', new', p') -> step m p m' p'.
Proof.
  destruct p as [x| |init k|pool k|pool c k|c k|c i k|c i v k]; cbn [exec]; try discriminate.
  - destruct (arrays m (Dyn new)) eqn:E; [discriminate|]. intros X. injection X as <- _ <-. apply st_alloc, E.
  - destruct (from_pool pool (pools m)) as [[[x b] y]|] eqn:F.
    + intros X. injection X as <- _ <-. apply st_get, from_pool_ok, F.
    + destruct (in_dec Z.eq_dec pool initialised) as [I|]; [|discriminate]. destruct (arrays m (Dyn new)) eqn:E; [discriminate|]. intros X. injection X as <- _ <-. apply st_new; assumption.
  - intros X. injection X as <- _ <-. apply st_put.
  - destruct (arrays m c) as [a|] eqn:E; [|discriminate]. intros X. injection X as <- _ <-. apply st_cap, E.
  - destruct (arrays m c) as [a|] eqn:E; [|discriminate]. destruct (nth_error a i) as [v|] eqn:N; [|discriminate]. intros X. injection X as <- _ <-. apply (st_read m c i k a v E N).
  - destruct (arrays m c) as [a|] eqn:E; [|discriminate]. destruct (lt_dec i (length a)) as [L|]; [|discriminate]. intros X. injection X as <- _ <-. apply (st_write m c i v k a E L).
Qed.
Fixpoint execs {A} (turns : list nat) (m : Store) (new : nat) (ps : list (prog A)) : Store * nat * list (prog A) :=
  match turns with
  | [] => (m, new, ps)
  | t :: turns =>
      match nth_error ps t with
      | Some p => match exec m new p with Some (m', new', p') => execs turns m' new' (firstn t ps ++ p' :: skipn (S t) ps) | None => execs turns m new ps end
      | None => execs turns m new ps
      end
  end.
Lemma execs_ok {A} (c : Store * list (prog A)) turns : forall m new ps, reaches c (m, ps) -> reaches c (fst (fst (execs turns m new ps)), snd (execs turns m new ps)).
Proof.
  induction turns as [|t turns IH]; intros m new ps R; cbn [execs fst snd]; [exact R|].
  destruct (nth_error ps t) as [p|] eqn:E; [|apply IH, R]. destruct (exec m new p) as [[[m' new'] p']|] eqn:X; [|apply IH, R]. apply IH. eapply rs_step; [exact R|].
  pose proof (nth_error_split ps t E) as [l1 [l2 [-> L]]]. rewrite <- L. rewrite firstn_app, firstn_all, Nat.sub_diag. cbn [firstn]. rewrite app_nil_r.
  replace (skipn (S (length l1)) (l1 ++ p :: l2)) with l2 by (rewrite skipn_app, skipn_all2 by lia; replace (S (length l1) - length l1) with 1 by lia; reflexivity).
  constructor. exact (exec_ok m new p m' new' p' X).
Qed.

(** Three matches at once, step by step in turn.  The first two search in texts of more than 16 bytes, so the pools are used. *)
Definition demo_glob : Matcher := NewBTree (MAnyOf [MPrefix (lit "b"); MEveryOf [MSuper; MAny [47%Z]]]) (Some (MText (lit "a"))) (Some (MText (lit "d"))).
Definition demo : list (Matcher * str) := [(demo_glob, lit "a0123456789012345d"); (demo_glob, lit "ab123456789/123456"); (MText (lit "x"), lit "x")].
Definition demo_turns : list nat := flat_map (fun _ => [0; 1; 2; 1]) (seq 0 2500).
Example C69_case : exists m, reaches (calls demo) (m, [Ret true; Ret false; Ret true]) /\ length (pools m) = 3.
Proof.
  pose proof (execs_ok (calls demo) demo_turns (fst (calls demo)) 0 (snd (calls demo)) (rs_here _)) as R.
  exists (fst (fst (execs demo_turns (fst (calls demo)) 0 (snd (calls demo))))). split.
  - replace [Ret true; Ret false; Ret true] with (snd (execs demo_turns (fst (calls demo)) 0 (snd (calls demo)))) by (vm_compute; reflexivity). exact R.
  - vm_compute. reflexivity.
Qed.
