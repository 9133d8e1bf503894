(** * C82: the probability of a password.

    Vocabulary of C11: [proper_sets], [valid_password], [streams_for] (the number of N-byte streams on which Generate returns
    the given password), [all_bytes]. *)
From Coq Require Import String ZArith Arith List ListDec Bool Lia Permutation Factorial.
From Verif Require Import PasswordModel PasswordProofs PasswordSpec PasswordCount PasswordUniform PasswordUniform2 PasswordProps PasswordConc PasswordConcProofs PasswordProb.
Import ListNotations.
Open Scope nat_scope.

(** ** Specification *)
(** The request is not refused (C10) and has no negative counts. *)
Definition possible (g : Generator) (len nd ns : Z) (nu ar : bool) : Prop :=
  (0 <= nd /\ 0 <= ns /\ nd + ns <= len /\
   (ar = false -> len - nd - ns <= Z.of_nat (length (letters g nu)) /\ nd <= Z.of_nat (length (digits g)) /\ ns <= Z.of_nat (length (symbols g))))%Z.
(** On how many of the 256^N streams of N bytes Generate returns a password at all. *)
Definition answers (fuel : nat) (g : Generator) (N : nat) (len nd ns : Z) (nu ar : bool) : nat :=
  length (filter (fun s => match Generate fuel g s len nd ns nu ar with Ok _ _ => true | _ => false end) (all_bytes N)).
(** n (n-1) ... (n-t+1). *)
Fixpoint falling (n t : nat) : nat := match t with O => 1 | S t' => n * falling (n - 1) t' end.
(** Ways to choose t characters one after the other from a set of n, with or without repeats. *)
Definition selections (ar : bool) (n t : nat) : nat := if ar then n ^ t else falling n t.

(** ** Almost every stream is enough *)
Lemma succeeds_Generate c s : succeeds (spawn c) s -> exists w rest F, forall f, F <= f ->
  Generate f (gen c) s (len c) (PasswordConc.numDigits c) (PasswordConc.numSymbols c) (noUpper c) (allowRepeat c) = Ok w rest.
Proof.
  intros [rest [t' [m [w [R E]]]]].
  assert (Fa : forall s t rest t' m, runs s t rest t' m -> waits_well t -> faithful c t -> faithful c t').
  { clear. induction 1 as [rng t|rng t rng1 t1 rng2 t2 m E R IH]; intros W F; [exact F|]. destruct (turn_act _ _ _ _ W E) as [A W1]. apply IH; [exact W1|]. eapply act_faithful; eassumption. }
  assert (Go : got t' ++ rest = s).
  { assert (G : forall rng t rng' t' m, runs rng t rng' t' m -> got t' ++ rng' = got t ++ rng).
    { clear. induction 1 as [rng t|rng t rng1 t1 rng2 t2 m E R IH]; [reflexivity|]. rewrite IH. revert E. unfold turn.
      destruct (wants _) as [|s'|k b max]; [discriminate|intros E; injection E as <- <-; reflexivity|].
      destruct rng as [|x rng]; [discriminate|]. intros E. injection E as <- <-. unfold receive. destruct (_ <? _); cbn [got]; rewrite <- app_assoc; reflexivity. }
    rewrite (G _ _ _ _ _ R). reflexivity. }
  specialize (Fa _ _ _ _ _ R (fresh_well _ _) (spawn_faithful c)). exists w, rest. apply start_Generate. rewrite <- Go.
  destruct Fa as [[W H]|[X _]]; [|congruence]. apply H. unfold waits_well in W. rewrite E in *. cbn [wants] in W. rewrite W. exists 0. intros. reflexivity.
Qed.
Definition the_call (g : Generator) (len_ nd ns : Z) (nu ar : bool) : call :=
  {| gen := g; len := len_; PasswordConc.numDigits := nd; PasswordConc.numSymbols := ns; noUpper := nu; allowRepeat := ar |}.
Lemma spawn_ready g len_ nd ns nu ar : proper_sets g nu -> possible g len_ nd ns nu ar ->
  exists M mu, ready M (spawn (the_call g len_ nd ns nu ar)) /\ left (at_ (spawn (the_call g len_ nd ns nu ar))) <= mu.
Proof.
  intros [[A1 [A2 A3]] [[N1 [N2 N3]] [[E1 [E2 E3]] [D1 [D2 D3]]]]] [P1 [P2 [P3 P4]]].
  set (c := Z.to_nat (len_ - nd - ns)). set (d := Z.to_nat nd). set (s := Z.to_nat ns).
  set (next := [(c, letters g nu); (d, digits g); (s, symbols g)]).
  assert (St : start (the_call g len_ nd ns nu ar) = loops ar next []).
  { unfold start. cbn [gen len PasswordConc.numDigits PasswordConc.numSymbols noUpper allowRepeat the_call].
    destruct (Z.ltb_spec (len_ - nd - ns) 0); [lia|]. destruct ar; cbn [negb andb]; [reflexivity|]. specialize (P4 eq_refl).
    destruct (Z.gtb_spec (len_ - nd - ns) (Z.of_nat (length (letters g nu)))); [lia|].
    destruct (Z.gtb_spec nd (Z.of_nat (length (digits g)))); [lia|]. destruct (Z.gtb_spec ns (Z.of_nat (length (symbols g)))); [lia|]. reflexivity. }
  set (M := c + d + s + length (letters g nu) + length (digits g) + length (symbols g)).
  assert (H0 : forall set, hits set [] = 0) by (intros set; apply hits_disjoint; intros x []).
  assert (R : room M ar next []).
  { split; [cbn; unfold M; lia|]. split.
    - unfold next. repeat constructor; cbn [fst snd]; try assumption; try (unfold M; lia); intros Ar; rewrite H0; specialize (P4 Ar); unfold c, d, s; lia.
    - unfold next. repeat constructor; cbn [fst snd]; assumption. }
  destruct (loops_fair M ar next [] R) as [F L]. exists M, (2 * total_todo next). cbn [spawn at_]. rewrite St. split; [|lia].
  split; [apply fresh_well|]. split; [apply Forall_nil|]. cbn [spawn at_]. rewrite St. exact F.
Qed.
Lemma finite_fuel c bad : forall l, (forall s, In s l -> In s bad \/ succeeds (spawn c) s) ->
  exists F, forall s, In s l -> In s bad \/ forall f, F <= f -> exists w rest,
    Generate f (gen c) s (len c) (PasswordConc.numDigits c) (PasswordConc.numSymbols c) (noUpper c) (allowRepeat c) = Ok w rest.
Proof.
  induction l as [|x l IH]; intros H; [exists 0; intros s []|]. destruct IH as [F HF]; [intros s Hs; apply H; right; exact Hs|].
  destruct (H x (or_introl eq_refl)) as [I|Su].
  - exists F. intros s [<-|Hs]; [left; exact I|apply HF, Hs].
  - apply succeeds_Generate in Su. destruct Su as [w [rest [F2 G]]]. exists (F + F2). intros s [<-|Hs].
    + right. intros f Hf. exists w, rest. apply G. lia.
    + destruct (HF s Hs) as [I|Q]; [left; exact I|right]. intros f Hf. apply Q. lia.
Qed.
Lemma filter_compl {A} (p : A -> bool) l : length (filter p l) + length (filter (fun x => negb (p x)) l) = length l.
Proof. induction l as [|x l IH]; [reflexivity|]. cbn. destruct (p x); cbn; lia. Qed.
Theorem C82_returns g len_ nd ns nu ar : proper_sets g nu -> possible g len_ nd ns nu ar ->
  forall q, exists N0, forall N, N0 <= N -> exists F, forall fuel, F <= fuel ->
    q * (256 ^ N - answers fuel g N len_ nd ns nu ar) <= 256 ^ N.
Proof.
  intros P Q q. destruct (spawn_ready g len_ nd ns nu ar P Q) as [M [mu [R L]]].
  set (B := 2 * M * mu + 1). set (a := 256 ^ B - 1). set (m := q * a). exists (m * B). intros N HN.
  destruct (few_bad_longer M mu B ltac:(unfold B; lia) m N _ HN R L) as [bad [Lb Hb]].
  destruct (finite_fuel _ bad _ Hb) as [F HF]. exists F. intros fuel Hf. cbn [gen len PasswordConc.numDigits PasswordConc.numSymbols noUpper allowRepeat the_call] in HF.
  assert (Ha : 1 <= a).
  { unfold a, B. rewrite Nat.add_1_r, Nat.pow_succ_r'. pose proof (Nat.pow_nonzero 256 (2 * M * mu) ltac:(discriminate)). lia. }
  assert (X : 256 ^ N - answers fuel g N len_ nd ns nu ar <= length bad).
  { unfold answers. rewrite <- all_bytes_count. set (ok := fun s => _).
    rewrite <- (filter_compl ok (all_bytes N)). rewrite Nat.add_comm, Nat.add_sub. apply NoDup_incl_length; [apply NoDup_filter, all_bytes_NoDup|].
    intros s Hs. apply filter_In in Hs. destruct Hs as [Hs No]. destruct (HF s Hs) as [I|G]; [exact I|]. destruct (G fuel Hf) as [w [rest E]].
    unfold ok in No. rewrite E in No. discriminate. }
  pose proof (shrinks a q Ha) as Sh. fold m in Sh. fold a in Lb. replace (a + 1) with (256 ^ B) in Sh.
  2:{ unfold a. pose proof (Nat.pow_nonzero 256 B ltac:(discriminate)). lia. }
  replace (256 ^ N) with ((256 ^ B) ^ m * 256 ^ (N - m * B)) at 2.
  2:{ rewrite <- Nat.pow_mul_r, <- Nat.pow_add_r. f_equal. lia. }
  set (T := 256 ^ (N - m * B)) in *. set (A := a ^ m) in *. set (Z0 := (256 ^ B) ^ m) in *. set (D := 256 ^ N - _) in *. clearbody D Z0 A T. nia.
Qed.
Print Assumptions C82_returns.

(** ** How many passwords there are *)
Lemma step1_length ar set res : length (step1 ar set res) = (if ar then length set else length set - hits set res) * S (length res).
Proof.
  unfold step1, hits. induction set as [|x set IH]; [destruct ar; reflexivity|]. cbn [flat_map filter]. rewrite app_length, IH.
  assert (Le : length (filter (fun x => memb x res) set) <= length set) by (clear; induction set as [|z l IHl]; cbn; [lia|destruct (memb z res); cbn; lia]).
  destruct ar; cbn [negb andb].
  - rewrite map_length, seq_length. reflexivity.
  - destruct (memb x res); cbn [length]; [reflexivity|]. rewrite map_length, seq_length.
    replace (S (length set) - length (filter (fun x => memb x res) set)) with (S (length set - length (filter (fun x => memb x res) set))) by lia. reflexivity.
Qed.
Lemma flat_map_count {A B} (f : A -> list B) l X Y : (forall r, In r l -> length (f r) * X = Y) -> length (flat_map f l) * X = length l * Y.
Proof.
  induction l as [|x l IH]; intros H; [reflexivity|]. cbn [flat_map length]. rewrite app_length, Nat.mul_add_distr_r, IH by (intros r Hr; apply H; right; exact Hr).
  rewrite H by (left; reflexivity). reflexivity.
Qed.
Lemma picks_length ar set : NoDup set -> forall t res,
  length (picks t ar set res) * fact (length res) = selections ar (if ar then length set else length set - hits set res) t * fact (length res + t).
Proof.
  intros Nd. induction t as [|t IH]; intros res; cbn [picks].
  - rewrite Nat.add_0_r. unfold selections. destruct ar; cbn; lia.
  - set (n := if ar then length set else length set - hits set res).
    assert (H : forall r, In r (step1 ar set res) -> length (picks t ar set r) * fact (S (length res)) = selections ar (if ar then n else n - 1) t * fact (S (length res) + t)).
    { intros r Hr. unfold step1 in Hr. apply in_flat_map in Hr. destruct Hr as [ch [Hc Hr]]. destruct (negb ar && memb ch res) eqn:E; [destruct Hr|].
      apply in_map_iff in Hr. destruct Hr as [i [<- _]]. specialize (IH (insert_at i ch res)). rewrite insert_length in IH. rewrite IH. f_equal. f_equal. unfold n. destruct ar; [reflexivity|].
      cbn [negb andb] in E. rewrite hits_insert by assumption. lia. }
    pose proof (flat_map_count _ _ _ _ H) as C. rewrite step1_length in C. fold n in C.
    change (fact (S (length res))) with (S (length res) * fact (length res)) in C.
    assert (D : length (flat_map (picks t ar set) (step1 ar set res)) * fact (length res) = n * (selections ar (if ar then n else n - 1) t * fact (S (length res) + t))).
    { apply (Nat.mul_cancel_l _ _ (S (length res)) ltac:(lia)). set (X := selections _ _ _ * _) in *. clearbody X. nia. }
    rewrite D. replace (length res + S t) with (S (length res) + t) by lia. rewrite Nat.mul_assoc. f_equal. unfold selections. destruct ar; reflexivity.
Qed.
Lemma outcomes_nil ar : outcomes ar [] = [[]].
Proof. unfold outcomes. cbn [choices filter map]. replace (nodupb []) with true by (symmetry; apply nodupb_true; constructor). destruct ar; reflexivity. Qed.
Lemma layer ar set t rs l : NoDup set -> (forall r, In r rs -> length r = l /\ hits set r = 0) ->
  length (flat_map (picks t ar set) rs) * fact l = length rs * (selections ar (length set) t * fact (l + t)).
Proof.
  intros Nd H. apply flat_map_count. intros r Hr. destruct (H r Hr) as [L Z0]. pose proof (picks_length ar set Nd t r) as P. rewrite L, Z0, Nat.sub_0_r in P.
  rewrite P. destruct ar; reflexivity.
Qed.
Lemma outcomes_length ar L D S_ c d s : NoDup L -> NoDup D -> NoDup S_ -> disjoint L D -> disjoint L S_ -> disjoint D S_ ->
  length (outcomes ar (PasswordSpec.steps L D S_ c d s)) = fact (c + d + s) * (selections ar (length L) c * selections ar (length D) d * selections ar (length S_) s).
Proof.
  intros N1 N2 N3 D1 D2 D3. unfold PasswordSpec.steps. rewrite outcomes_repeat, outcomes_repeat, <- (app_nil_r (repeat L c)), outcomes_repeat, outcomes_nil.
  pose proof (layer ar L c [[]] 0 N1 ltac:(intros r [<-|[]]; split; [reflexivity|apply hits_disjoint; intros x []])) as H1.
  set (r1 := flat_map (picks c ar L) [[]]) in *. cbn [length fact Nat.add] in H1.
  assert (I1 : forall r, In r r1 -> length r = c /\ forall x, In x r -> In x L).
  { intros r Hr. unfold r1 in Hr. cbn [flat_map] in Hr. rewrite app_nil_r in Hr. apply picks_props in Hr. destruct Hr as [Q1 Q2]. split; [exact Q1|]. intros x Hx. destruct (Q2 x Hx) as [[]|]; assumption. }
  pose proof (layer ar D d r1 c N2 ltac:(intros r Hr; destruct (I1 r Hr) as [Q1 Q2]; split; [exact Q1|apply hits_disjoint; intros x X1 X2; exact (D1 x (Q2 x X1) X2)])) as H2.
  set (r2 := flat_map (picks d ar D) r1) in *.
  assert (I2 : forall r, In r r2 -> length r = c + d /\ forall x, In x r -> In x L \/ In x D).
  { intros r Hr. unfold r2 in Hr. apply in_flat_map in Hr. destruct Hr as [r0 [H0 Hr]]. destruct (I1 r0 H0) as [Q1 Q2]. apply picks_props in Hr. destruct Hr as [Q3 Q4]. split; [lia|].
    intros x Hx. destruct (Q4 x Hx) as [Y|Y]; [left; apply Q2, Y|right; exact Y]. }
  pose proof (layer ar S_ s r2 (c + d) N3 ltac:(intros r Hr; destruct (I2 r Hr) as [Q1 Q2]; split; [exact Q1|apply hits_disjoint; intros x X1 X2; destruct (Q2 x X1) as [Y|Y]; [exact (D2 x Y X2)|exact (D3 x Y X2)]])) as H3.
  pose proof (lt_O_fact c). pose proof (lt_O_fact (c + d)).
  apply (Nat.mul_cancel_r _ _ (fact c * fact (c + d)) ltac:(nia)).
  set (A := selections ar (length L) c) in *. set (B := selections ar (length D) d) in *. set (C := selections ar (length S_) s) in *.
  set (f1 := fact c) in *. set (f2 := fact (c + d)) in *. set (f3 := fact (c + d + s)) in *. set (n3 := length (flat_map (picks s ar S_) r2)) in *. set (n2 := length r2) in *. set (n1 := length r1) in *.
  clearbody A B C f1 f2 f3 n3 n2 n1. replace (n3 * (f1 * f2)) with ((n3 * f2) * f1) by lia. rewrite H3. replace (n2 * (C * f3) * f1) with ((n2 * f1) * (C * f3)) by lia. rewrite H2. nia.
Qed.
Lemma count_in_all X l : Forall (fun b => In b X) l -> count_in X l = length l.
Proof. intros H. unfold count_in. rewrite filter_const_true; [reflexivity|]. rewrite Forall_forall in H. intros x Hx. apply memb_true, H, Hx. Qed.
Lemma count_in_none X l : (forall b, In b l -> In b X -> False) -> count_in X l = 0.
Proof. intros H. unfold count_in. rewrite filter_const_false; [reflexivity|]. intros x Hx. destruct (memb x X) eqn:E; [|reflexivity]. apply memb_true in E. destruct (H x Hx E). Qed.
Lemma count_in_perm X a b : Permutation a b -> count_in X a = count_in X b.
Proof.
  unfold count_in. induction 1 as [|x a b P IH|x y a|a b c P1 IH1 P2 IH2]; [reflexivity| | |congruence].
  - cbn. destruct (memb x X); cbn; congruence.
  - cbn. destruct (memb x X), (memb y X); reflexivity.
Qed.
Lemma count_in_app X a b : count_in X (a ++ b) = count_in X a + count_in X b.
Proof. unfold count_in. rewrite filter_app, app_length. reflexivity. Qed.
Lemma perm_composed L D S_ ls ds ss w : disjoint L D -> disjoint L S_ -> disjoint D S_ ->
  Permutation w (ls ++ ds ++ ss) -> Forall (fun b => In b L) ls -> Forall (fun b => In b D) ds -> Forall (fun b => In b S_) ss ->
  composed L D S_ (length ls) (length ds) (length ss) w.
Proof.
  intros D1 D2 D3 P F1 F2 F3. split; [rewrite (Permutation_length P), !app_length; lia|].
  rewrite !(count_in_perm _ _ _ P), !count_in_app. rewrite (count_in_all L ls F1), (count_in_all D ds F2), (count_in_all S_ ss F3).
  rewrite Forall_forall in *.
  rewrite (count_in_none L ds), (count_in_none L ss), (count_in_none D ls), (count_in_none D ss), (count_in_none S_ ls), (count_in_none S_ ds); [lia|intros b X Y..].
  - exact (D3 b (F2 b X) Y).
  - exact (D2 b (F1 b X) Y).
  - exact (D3 b Y (F3 b X)).
  - exact (D1 b (F1 b X) Y).
  - exact (D2 b Y (F3 b X)).
  - exact (D1 b Y (F2 b X)).
Qed.
Lemma choices_sets : forall sets v, In v (choices sets) -> Forall2 (fun x set => In x set) (map fst v) sets.
Proof.
  induction sets as [|set sets IH]; intros v H; cbn [choices] in H.
  - destruct H as [<-|[]]. constructor.
  - apply in_flat_map in H. destruct H as [v' [H1 H2]]. apply in_flat_map in H2. destruct H2 as [ch [H2 H3]]. apply in_map_iff in H3. destruct H3 as [i [<- _]].
    cbn [map fst]. constructor; [exact H2|apply IH, H1].
Qed.
Lemma Forall2_repeat (l : list Z) set n : Forall2 (fun x set => In x set) l (repeat set n) -> length l = n /\ Forall (fun b => In b set) l.
Proof.
  revert l. induction n as [|n IH]; intros l H; inversion H; subst; [split; [reflexivity|constructor]|].
  destruct (IH _ H4) as [L F]. split; [cbn; lia|constructor; assumption].
Qed.
Lemma outcome_valid ar L D S_ c d s w : disjoint L D -> disjoint L S_ -> disjoint D S_ ->
  In w (outcomes ar (PasswordSpec.steps L D S_ c d s)) -> composed L D S_ c d s w /\ (ar = false -> NoDup w).
Proof.
  intros D1 D2 D3 H. unfold outcomes in H. apply in_map_iff in H. destruct H as [v [<- H]]. apply filter_In in H. destruct H as [H Nr].
  pose proof (choices_sets _ _ H) as F. unfold PasswordSpec.steps in F. apply Forall2_app_inv_r in F. destruct F as [ss [r1 [F1 [F E1]]]]. apply Forall2_app_inv_r in F. destruct F as [ds [ls [F2 [F3 E2]]]].
  apply Forall2_repeat in F1, F2, F3. destruct F1 as [L3 F1], F2 as [L2 F2], F3 as [L1 F3]. subst. split.
  - apply perm_composed; try assumption. eapply Permutation_trans; [apply build_perm|]. rewrite E1.
    eapply Permutation_trans; [apply Permutation_app_comm|]. rewrite (app_assoc ls). apply Permutation_app_tail. apply Permutation_app_comm.
  - intros ->. cbn [orb] in Nr. apply nodupb_true in Nr. eapply Permutation_NoDup; [apply Permutation_sym, build_perm|exact Nr].
Qed.
Lemma ways_mode_count ar L D S_ c d s w : NoDup L -> NoDup D -> NoDup S_ -> disjoint L D -> disjoint L S_ -> disjoint D S_ ->
  composed L D S_ c d s w -> (ar = false -> NoDup w) -> ways_mode ar (PasswordSpec.steps L D S_ c d s) w = fact c * fact d * fact s.
Proof.
  intros N1 N2 N3 D1 D2 D3 C R. rewrite ways_mode_spec. destruct ar; [apply ways_count; auto|]. rewrite ways_norepeat_nodup by auto. apply ways_count; auto.
Qed.
Lemma list_eqb_refl w : list_eqb w w = true.
Proof. apply list_eqb_true. reflexivity. Qed.
Lemma pick_one (all : list (list Z)) u K : NoDup all -> In u all -> ssum all (fun w => if list_eqb u w then K else 0) = K.
Proof.
  induction 1 as [|x l Hx N IH]; intros H; [destruct H|]. rewrite ssum_cons. destruct H as [->|H].
  - rewrite list_eqb_refl. rewrite (ssum_ext _ _ (fun _ => 0)); [rewrite ssum_zero; lia|]. intros y Hy. destruct (list_eqb u y) eqn:E; [|reflexivity].
    apply list_eqb_true in E. subst. contradiction.
  - rewrite IH by exact H. destruct (list_eqb u x) eqn:E; [|reflexivity]. apply list_eqb_true in E. subst. contradiction.
Qed.
Lemma ssum_one {A} (l : list A) : ssum l (fun _ => 1) = length l.
Proof. induction l as [|x l IH]; [reflexivity|]. rewrite ssum_cons, IH. reflexivity. Qed.
Lemma ssum_const {A} (l : list A) K f : (forall x, In x l -> f x = K) -> ssum l f = length l * K.
Proof. induction l as [|x l IH]; intros H; [reflexivity|]. rewrite ssum_cons, H, IH by (auto with datatypes). reflexivity. Qed.
Definition numbers (len nd ns : Z) : nat * nat * nat := (Z.to_nat (len - nd - ns), Z.to_nat nd, Z.to_nat ns).
Theorem C82_number g len_ nd ns nu ar : proper_sets g nu ->
  let '(c, d, s) := numbers len_ nd ns in
  exists all, NoDup all /\ (forall w, In w all <-> valid_password g len_ nd ns nu ar w) /\
    length all * (fact c * fact d * fact s)
    = fact (c + d + s) * (selections ar (length (letters g nu)) c * selections ar (length (digits g)) d * selections ar (length (symbols g)) s).
Proof.
  intros [[A1 [A2 A3]] [[N1 [N2 N3]] [[E1 [E2 E3]] [D1 [D2 D3]]]]]. unfold numbers.
  set (c := Z.to_nat (len_ - nd - ns)). set (d := Z.to_nat nd). set (s := Z.to_nat ns).
  set (outs := outcomes ar (PasswordSpec.steps (letters g nu) (digits g) (symbols g) c d s)).
  exists (nodup (list_eq_dec Z.eq_dec) outs).
  assert (IFF : forall w, In w outs <-> valid_password g len_ nd ns nu ar w).
  { intros w. split.
    - intros H. apply outcome_valid in H; assumption.
    - intros [C R]. fold c d s in C. pose proof (ways_mode_count ar _ _ _ c d s w N1 N2 N3 D1 D2 D3 C R) as W. unfold ways_mode in W. fold outs in W.
      assert (P : 0 < ssum outs (fun u => if list_eqb u w then 1 else 0)) by (rewrite W; pose proof (lt_O_fact c); pose proof (lt_O_fact d); pose proof (lt_O_fact s); nia).
      apply ssum_pos_in in P. destruct P as [u [Hu E]]. destruct (list_eqb u w) eqn:Eu; [|lia]. apply list_eqb_true in Eu. subst. exact Hu. }
  split; [apply NoDup_nodup|]. split; [intros w; rewrite nodup_In; apply IFF|].
  rewrite <- (outcomes_length ar _ _ _ c d s N1 N2 N3 D1 D2 D3). fold outs. set (all := nodup _ outs).
  rewrite <- (ssum_one outs).
  rewrite (ssum_ext outs _ (fun u => ssum all (fun w => if list_eqb u w then 1 else 0))).
  2:{ intros u Hu. symmetry. apply pick_one; [apply NoDup_nodup|]. unfold all. rewrite nodup_In. exact Hu. }
  rewrite ssum_swap. symmetry. apply ssum_const. intros w Hw. unfold all in Hw. rewrite nodup_In in Hw. apply IFF in Hw. destruct Hw as [C R].
  exact (ways_mode_count ar _ _ _ c d s w N1 N2 N3 D1 D2 D3 C R).
Qed.
Print Assumptions C82_number.

(** ** The probability *)
Lemma returned_valid_any fuel g rng len_ nd ns nu ar w rest : proper_sets g nu -> (0 <= nd /\ 0 <= ns /\ nd + ns <= len_)%Z -> bytes rng ->
  Generate fuel g rng len_ nd ns nu ar = Ok w rest -> valid_password g len_ nd ns nu ar w.
Proof.
  intros [[A1 [A2 A3]] [_ [_ [D1 [D2 D3]]]]] [P1 [P2 P3]] B E.
  set (g' := {| lowerLetters := letters g nu; upperLetters := []; digits := digits g; symbols := symbols g |}).
  change (Generate fuel g' rng len_ nd ns true ar = Ok w rest) in E.
  destruct (Generate_ok _ _ _ _ _ _ _ _ _ _ B E) as [ls [ds [ss [P [L1 [L2 [L3 [I1 [I2 [I3 N]]]]]]]]]].
  assert (Al : ascii (ls ++ ds ++ ss)).
  { apply Forall_app. split; [|apply Forall_app; split]; eapply ascii_incl; [exact A1|exact I1|exact A2|exact I2|exact A3|exact I3]. }
  rewrite concat_ascii in P by exact Al. split.
  - replace (Z.to_nat (len_ - nd - ns)) with (length ls) by lia. replace (Z.to_nat nd) with (length ds) by lia. replace (Z.to_nat ns) with (length ss) by lia.
    apply perm_composed; assumption.
  - intros Ar. apply N; [|exact Ar]. repeat split; try assumption. constructor.
Qed.
Lemma returned_valid fuel g rng len_ nd ns nu ar w rest : proper_sets g nu -> possible g len_ nd ns nu ar -> bytes rng ->
  Generate fuel g rng len_ nd ns nu ar = Ok w rest -> valid_password g len_ nd ns nu ar w.
Proof. intros P [P1 [P2 [P3 _]]]. apply returned_valid_any; auto. Qed.
Theorem C82_probability g len_ nd ns nu ar w : proper_sets g nu -> possible g len_ nd ns nu ar -> valid_password g len_ nd ns nu ar w ->
  let '(c, d, s) := numbers len_ nd ns in
  let choices := fact (c + d + s) * (selections ar (length (letters g nu)) c * selections ar (length (digits g)) d * selections ar (length (symbols g)) s) in
  let same := fact c * fact d * fact s in
  forall q, exists N0, forall N, N0 <= N -> exists F, forall fuel, F <= fuel ->
    choices * streams_for fuel g N len_ nd ns nu ar w <= same * 256 ^ N /\
    q * (same * 256 ^ N - choices * streams_for fuel g N len_ nd ns nu ar w) <= same * 256 ^ N.
Proof.
  intros P Q V. pose proof (C82_number g len_ nd ns nu ar P) as Num. unfold numbers in *.
  set (c := Z.to_nat (len_ - nd - ns)) in *. set (d := Z.to_nat nd) in *. set (s := Z.to_nat ns) in *. cbv zeta.
  destruct Num as [all [Nd [IFF Cnt]]]. rewrite <- Cnt. intros q. destruct (C82_returns g len_ nd ns nu ar P Q q) as [N0 H]. exists N0. intros N HN. destruct (H N HN) as [F HF].
  exists F. intros fuel Hf. specialize (HF fuel Hf).
  assert (Sum : answers fuel g N len_ nd ns nu ar = length all * streams_for fuel g N len_ nd ns nu ar w).
  { rewrite <- (ssum_const all (streams_for fuel g N len_ nd ns nu ar w) (fun u => streams_for fuel g N len_ nd ns nu ar u)).
    2:{ intros u Hu. apply IFF in Hu. apply C11_generate_uniform; assumption. }
    unfold answers, streams_for. rewrite length_filter_sum. 
    transitivity (ssum (all_bytes N) (fun st => ssum all (fun u => if match Generate fuel g st len_ nd ns nu ar with Ok v _ => list_eqb v u | _ => false end then 1 else 0))).
    - apply (ssum_ext (all_bytes N)). intros st Hst. destruct (Generate fuel g st len_ nd ns nu ar) as [v rest|e| |] eqn:E; try (rewrite ssum_zero; reflexivity).
      symmetry. apply pick_one; [exact Nd|]. apply IFF. eapply returned_valid; [exact P|exact Q|eapply all_bytes_bytes, Hst|exact E].
    - rewrite ssum_swap. apply ssum_ext. intros u _. rewrite length_filter_sum. reflexivity. }
  assert (Le : answers fuel g N len_ nd ns nu ar <= 256 ^ N).
  { unfold answers. rewrite <- all_bytes_count. set (p := fun _ : list Z => _). pose proof (filter_compl p (all_bytes N)). lia. }
  rewrite Sum in *. set (st := streams_for fuel g N len_ nd ns nu ar w) in *. set (V0 := length all) in *. set (T := 256 ^ N) in *. set (X := fact c * fact d * fact s) in *. clearbody st V0 T X.
  replace (V0 * X * st) with (X * (V0 * st)) by lia. split; [apply Nat.mul_le_mono_l, Le|]. rewrite <- Nat.mul_sub_distr_l.
  replace (q * (X * (T - V0 * st))) with (X * (q * (T - V0 * st))) by lia. apply Nat.mul_le_mono_l, HF.
Qed.
Print Assumptions C82_probability.

(** ** The hypotheses are met *)
(** The default sets; a letter and a digit without repeats: 520 passwords, each with probability 1/520. *)
Example C82_case : proper_sets default_generator true /\ possible default_generator 2 1 0 true false /\
  valid_password default_generator 2 1 0 true false (bytes_of_string "7k"%string) /\
  numbers 2 1 0 = (1, 1, 0) /\
  fact 2 * (selections false (length (letters default_generator true)) 1 * selections false (length (digits default_generator)) 1 * selections false (length (symbols default_generator)) 0) = 520 /\
  fact 1 * fact 1 * fact 0 = 1.
Proof.
  split; [apply C11_default_proper|]. split; [unfold possible; repeat split; vm_compute; congruence|].
  split; [split; [repeat split|intros _; apply nodup_check_ok; reflexivity]|]. repeat split; vm_compute; reflexivity.
Qed.
