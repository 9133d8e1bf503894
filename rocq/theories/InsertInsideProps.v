(** * C78: inserts whose sources are in the store. *)
From Coq Require Import String.
From Coq Require Import ZArith Arith List Bool Lia.
From Verif Require Import GoStr FsModel RepoSpec FsProofs CmdModel CmdSpec FsWrite InsertSteps InsertStepsProps.
Import ListNotations.
Open Scope nat_scope.

(** ** Specification *)
(** The jobs can start in w: the sources are files; any of them may be a target, of the same job or another one. *)
Definition startable (w : World) (jobs : list Job) : Prop :=
  Forall (fun j => jsrc j <> [] /\ Forall normal (jsrc j) /\ jtgt j <> [] /\ Forall normal (jtgt j) /\ is_file w (jsrc j) (jtext j)) jobs.
(** The texts that can flow into f: those of the sources of jobs for f, and what flows into these sources. *)
Inductive flows (jobs : list Job) : list str -> str -> Prop :=
  | fl_source j : In j jobs -> flows jobs (jtgt j) (jtext j)
  | fl_through j t : In j jobs -> flows jobs (jsrc j) t -> flows jobs (jtgt j) t.
(** A byte that can be at position i of f: one of these texts has it there, or a zero before the end of one. *)
Definition from_some_text (jobs : list Job) (f : list str) (i : nat) (z : Z) : Prop :=
  exists t, flows jobs f t /\ (nth_error t i = Some z \/ (z = 0%Z /\ i < length t)).
(** No job writes the source of j. *)
Definition steady (jobs : list Job) (j : Job) : Prop := forall k, In k jobs -> jtgt k <> jsrc j.
(** The length of the longest text. *)
Definition longest (jobs : list Job) : nat := list_max (map (fun j => length (jtext j)) jobs).

(** ** Proofs *)
Lemma file_parent w f c : f <> [] -> is_file w f c -> is_dir w (removelast f).
Proof.
  intros Nt Fc. unfold is_file, is_dir, node_at in *. destruct (exists_last Nt) as [l [x E]]. rewrite E in *. rewrite removelast_last. clear E Nt.
  revert Fc. generalize (Dir (tree w)) as nd. induction l as [|a l IH]; intros nd Fc; cbn [app below] in *.
  - destruct nd as [|es]; [discriminate|eauto].
  - destruct nd as [|es]; [discriminate|]. destruct (child es a) as [y|]; [|discriminate]. apply IH. exact Fc.
Qed.
Lemma file_creatable w f c : f <> [] -> is_file w f c -> creatable w f.
Proof. intros N F. split; [exact (file_parent _ _ _ N F)|exact (file_not_dir _ _ _ F)]. Qed.

Section Jobs.
  Variables (w0 : World) (jobs : list Job).
  Hypothesis Start : startable w0 jobs.
  Let start j : In j jobs -> jsrc j <> [] /\ Forall normal (jsrc j) /\ jtgt j <> [] /\ Forall normal (jtgt j) /\ is_file w0 (jsrc j) (jtext j).
  Proof. intros I. unfold startable in Start. rewrite Forall_forall in Start. exact (Start j I). Qed.
  Lemma flows_longest f t : flows jobs f t -> length t <= longest jobs.
  Proof. intros H. induction H as [j I|j t I H IH]; [|exact IH]. unfold longest. pose proof (proj1 (list_max_le (map (fun j => length (jtext j)) jobs) (list_max (map (fun j => length (jtext j)) jobs))) (le_n _)) as X. rewrite Forall_forall in X. apply X. apply in_map_iff. eauto. Qed.
  Definition working (w : World) (j : Job) (ph : Phase) : Prop :=
    match ph with
    | Copying r k buf => r = k + length buf /\ (exists c, is_file w (jtgt j) c) /\ (forall p z, nth_error buf p = Some z -> from_some_text jobs (jtgt j) (k + p) z) /\ (r = 0 \/ exists t, flows jobs (jtgt j) t /\ r <= length t)
    | Returned e => e = ENil \/ e = ECreate
    | Ready => True
    end.
  (** A job whose source is not written and whose target no other job has. *)
  Definition mine (faults : bool) (w : World) (j : Job) (ph : Phase) : Prop :=
    match ph with
    | Ready => untouched w0 w (jtgt j)
    | Copying r k buf => creatable w0 (jtgt j) /\ is_file w (jtgt j) (firstn k (jtext j)) /\ exists done rest, jtext j = done ++ buf ++ rest /\ length done = k /\ r = k + length buf
    | Returned ECreate => untouched w0 w (jtgt j) /\ ~ creatable w0 (jtgt j)
    | Returned _ => creatable w0 (jtgt j) /\ exists k, is_file w (jtgt j) (firstn k (jtext j)) /\ (faults = false -> firstn k (jtext j) = jtext j)
    end.
  (** A job whose source is its target, which no other job has. *)
  Definition itself (w : World) (j : Job) (ph : Phase) : Prop :=
    match ph with
    | Ready => untouched w0 w (jtgt j)
    | Copying r k buf => r = 0 /\ k = 0 /\ buf = [] /\ is_file w (jtgt j) []
    | Returned e => e = ENil /\ is_file w (jtgt j) []
    end.
  Record linv (faults : bool) (w : World) (P : nat -> Phase) : Prop := {
    l_cwd : cwd w = cwd w0;
    l_dirs : forall ms, is_dir w ms <-> is_dir w0 ms;
    l_files : forall ms, (forall j, In j jobs -> jtgt j <> ms) -> untouched w0 w ms;
    l_exist : forall f c, is_file w0 f c -> exists c', is_file w f c';
    l_work : forall i j, nth_error jobs i = Some j -> working w j (P i);
    l_bytes : forall f, (untouched w0 w f /\ forall i j, nth_error jobs i = Some j -> jtgt j = f -> P i = Ready \/ P i = Returned ECreate) \/ (forall c, is_file w f c -> forall i z, nth_error c i = Some z -> from_some_text jobs f i z);
    l_mine : forall i j, sole jobs i j -> steady jobs j -> mine faults w j (P i);
    l_itself : forall i j, sole jobs i j -> jsrc j = jtgt j -> itself w j (P i) }.
  Lemma linv_start faults : linv faults w0 all_ready.
  Proof. split; intros; try reflexivity; try exact I; try (intros c; reflexivity); [eauto|]. left. split; [intros c; reflexivity|]. intros i j _ _. left. reflexivity. Qed.
  Lemma lwrite_step faults w P i j c w' ph : nth_error jobs i = Some j -> linv faults w P -> create w (abs_path (jtgt j)) c = Some w' ->
    working w' j ph -> (forall n z, nth_error c n = Some z -> from_some_text jobs (jtgt j) n z) -> (sole jobs i j -> steady jobs j -> mine faults w' j ph) -> (sole jobs i j -> jsrc j = jtgt j -> itself w' j ph) -> linv faults w' (upd P i ph).
  Proof.
    intros Nj V C Cp By Al It. assert (Ij : In j jobs) by (eapply nth_error_In; exact Nj). destruct (start j Ij) as [_ [_ [Nt [Ft _]]]]. destruct (create_dirs _ _ _ _ Nt Ft C) as [OC [_ ND]]. pose proof (only_change_dirs _ _ _ _ OC ND) as Dr. destruct OC as [Cw [Fi [Fo _]]].
    assert (Dirs : forall ms, is_dir w' ms <-> is_dir w0 ms) by (intros ms; rewrite Dr; apply (l_dirs _ _ _ V)). constructor.
    - rewrite Cw. apply (l_cwd _ _ _ V).
    - exact Dirs.
    - intros ms Nm c'. rewrite Fo by (intros E; apply (Nm j Ij); auto). apply (l_files _ _ _ V ms Nm).
    - intros f c0 F0. destruct (list_eq_dec str_dec f (jtgt j)) as [->|E]; [eauto|]. destruct (l_exist _ _ _ V f c0 F0) as [c1 F1]. exists c1. apply Fo; assumption.
    - intros k jk Nk. unfold upd. destruct (Nat.eqb_spec k i) as [->|Ne]; [rewrite Nj in Nk; injection Nk as <-; exact Cp|]. pose proof (l_work _ _ _ V k jk Nk) as X. destruct (P k) as [|r0 k0 b0|e0]; [exact I| |exact X]. destruct X as [A [[c0 B] D]]. split; [exact A|]. split; [|exact D].
      destruct (list_eq_dec str_dec (jtgt jk) (jtgt j)) as [E|E]; [rewrite E; eauto|]. exists c0. apply Fo; assumption.
    - intros f. destruct (list_eq_dec str_dec f (jtgt j)) as [->|E]; [right; intros c' H; rewrite (is_file_unique _ _ _ _ H Fi); exact By|]. destruct (l_bytes _ _ _ V f) as [[U R]|Y]; [left|right].
      + split; [intros c'; rewrite Fo by exact E; apply U|]. intros k jk Nk Ek. unfold upd. destruct (Nat.eqb_spec k i) as [->|Ne]; [rewrite Nj in Nk; injection Nk as <-; congruence|apply (R k jk Nk Ek)].
      + intros c' H. apply Fo in H; [|exact E]. apply Y. exact H.
    - intros k jk Sk St. unfold upd. destruct (Nat.eqb_spec k i) as [->|Ne]; [destruct Sk as [Nk Sk]; rewrite Nj in Nk; injection Nk as <-; apply Al; [split; [exact Nj|exact Sk]|exact St]|].
      assert (E : jtgt jk <> jtgt j) by (intros E; apply Ne; symmetry; apply (proj2 Sk i j Nj); auto). pose proof (l_mine _ _ _ V k jk Sk St) as X.
      assert (Un : untouched w w' (jtgt jk)) by (intros c0; apply Fo; exact E). destruct (P k) as [|r0 k0 b0|e0]; cbn [mine] in *.
      + intros c0. rewrite (Un c0). apply X.
      + split; [apply X|]. split; [apply Un; apply X|apply X].
      + destruct e0; try (destruct X as [X1 [k1 [X2 X3]]]; split; [exact X1|]; exists k1; split; [apply Un; exact X2|exact X3]). destruct X as [X1 X2]. split; [|exact X2]. intros c0. rewrite (Un c0). apply X1.
    - intros k jk Sk St. unfold upd. destruct (Nat.eqb_spec k i) as [->|Ne]; [destruct Sk as [Nk Sk]; rewrite Nj in Nk; injection Nk as <-; apply It; [split; [exact Nj|exact Sk]|exact St]|].
      assert (E : jtgt jk <> jtgt j) by (intros E; apply Ne; symmetry; apply (proj2 Sk i j Nj); auto). pose proof (l_itself _ _ _ V k jk Sk St) as X.
      assert (Un : untouched w w' (jtgt jk)) by (intros c0; apply Fo; exact E). destruct (P k) as [|r0 k0 b0|e0]; cbn [itself] in *.
      + intros c0. rewrite (Un c0). apply X.
      + destruct X as [X1 [X2 [X3 X4]]]. repeat split; auto. apply Un. exact X4.
      + destruct X as [X1 X2]. split; [exact X1|apply Un; exact X2].
  Qed.
  Lemma lquiet_step faults w P i j ph : nth_error jobs i = Some j -> linv faults w P -> working w j ph -> (sole jobs i j -> steady jobs j -> mine faults w j ph) -> (sole jobs i j -> jsrc j = jtgt j -> itself w j ph) ->
    ((exists r k buf, P i = Copying r k buf) \/ ph = Returned ECreate) -> linv faults w (upd P i ph).
  Proof.
    intros Nj V Cp Al It Hp. constructor; try apply V.
    - intros k jk Nk. unfold upd. destruct (Nat.eqb_spec k i) as [->|Ne]; [rewrite Nj in Nk; injection Nk as <-; exact Cp|apply (l_work _ _ _ V k jk Nk)].
    - intros f. destruct (l_bytes _ _ _ V f) as [[U R]|Y]; [left|right; exact Y]. split; [exact U|]. intros k jk Nk Ek. unfold upd. destruct (Nat.eqb_spec k i) as [->|Ne]; [|exact (R k jk Nk Ek)]. destruct Hp as [[r [k0 [buf Hp]]]|Hp]; [|right; exact Hp].
      destruct (R i jk Nk Ek); congruence.
    - intros k jk Sk St. unfold upd. destruct (Nat.eqb_spec k i) as [->|Ne]; [destruct Sk as [Nk Sk]; rewrite Nj in Nk; injection Nk as <-; apply Al; [split; assumption|exact St]|apply (l_mine _ _ _ V k jk Sk St)].
    - intros k jk Sk St. unfold upd. destruct (Nat.eqb_spec k i) as [->|Ne]; [destruct Sk as [Nk Sk]; rewrite Nj in Nk; injection Nk as <-; apply It; [split; assumption|exact St]|apply (l_itself _ _ _ V k jk Sk St)].
  Qed.
  (** What a source holds at any time. *)
  Lemma source_now faults w P j : linv faults w P -> In j jobs -> exists c, is_file w (jsrc j) c /\ (c = jtext j \/ forall i z, nth_error c i = Some z -> from_some_text jobs (jsrc j) i z).
  Proof.
    intros V Ij. destruct (start j Ij) as [_ [_ [_ [_ H]]]]. destruct (l_exist _ _ _ V _ _ H) as [c F]. exists c. split; [exact F|]. destruct (l_bytes _ _ _ V (jsrc j)) as [[U _]|Y]; [left|right; intros i z; apply Y; exact F]. apply U in F. exact (is_file_unique _ _ _ _ F H).
  Qed.
  Lemma source_bytes j c : In j jobs -> (c = jtext j \/ forall i z, nth_error c i = Some z -> from_some_text jobs (jsrc j) i z) -> forall i z, nth_error c i = Some z -> from_some_text jobs (jtgt j) i z.
  Proof. intros Ij [->|H] i z Hz; [exists (jtext j); split; [constructor; exact Ij|auto]|]. destruct (H i z Hz) as [t [F X]]. exists t. split; [apply fl_through; assumption|exact X]. Qed.
  Lemma source_length j c : In j jobs -> (c = jtext j \/ forall i z, nth_error c i = Some z -> from_some_text jobs (jsrc j) i z) -> c <> [] -> exists t, flows jobs (jtgt j) t /\ length c <= length t.
  Proof.
    intros Ij H N. destruct (exists_last N) as [l [z E]]. subst c. destruct (source_bytes j _ Ij H (length l) z) as [t [F X]]; [rewrite nth_error_app2, Nat.sub_diag by lia; reflexivity|]. exists t. split; [exact F|]. rewrite app_length. cbn.
    destruct X as [X|[_ X]]; [apply nth_error_Some_lt in X || (assert (length l < length t) by (apply nth_error_Some; congruence))|]; lia.
  Qed.
  Lemma source_steady faults w P j : linv faults w P -> In j jobs -> steady jobs j -> is_file w (jsrc j) (jtext j).
  Proof. intros V Ij D. destruct (start j Ij) as [_ [_ [_ [_ H]]]]. apply (l_files _ _ _ V (jsrc j)); [exact D|exact H]. Qed.
  Lemma linv_step faults s s' : cstep (map call_of jobs) faults s s' -> linv faults (fst s) (snd s) -> linv faults (fst s') (snd s').
  Proof.
    intros H V. destruct H as [w P i src tgt w' ph Nc St|w P i src tgt ph Hf Nc Fl]; cbn [fst snd] in *.
    - destruct (job_at jobs _ _ _ Nc) as [j [Nj [Ij [-> ->]]]]. destruct (start j Ij) as [Ns [Fs [Nt [Ft Hs]]]]. pose proof (source_now faults w P j V Ij) as [now [Now Kn]]. pose proof (source_steady faults w P j V Ij) as Ste. pose proof (l_work _ _ _ V i j Nj) as Cp. pose proof (l_mine _ _ _ V i j) as Al. pose proof (l_itself _ _ _ V i j) as It.
      inversion St as [w1 C E1 E2 E3 E4|w1 w1' C E1 E2 E3 E4|w1 content r k c after O Sk Nn E1 E2 E3 E4|w1 old w1' r k a b Na O C E1 E2 E3 E4|w1 content r k O L E1 E2 E3 E4]; subst.
      + assert (NC : ~ creatable w' (jtgt j)) by (intros X; pose proof (proj1 (create_possible w' (jtgt j) [] Nt Ft) C) as Y; exact (Y X)).
        apply (lquiet_step faults w' P i j); try assumption; [right; reflexivity| | |right; reflexivity].
        * intros Sl Sy. specialize (Al Sl Sy). rewrite <- E2 in Al. split; [exact Al|]. intros X. apply NC. unfold creatable in *. rewrite !(l_dirs _ _ _ V). exact X.
        * intros Sl Sy. exfalso. apply NC. rewrite <- Sy. exact (file_creatable _ _ _ Ns Now).
      + destruct (create_dirs _ _ _ _ Nt Ft C) as [OC [D1 D2]]. apply (lwrite_step faults w P i j [] w'); try assumption.
        * split; [reflexivity|]. split; [exists []; exact (proj1 (proj2 OC))|]. split; [intros [|p] z X; discriminate|auto].
        * intros n z X. destruct n; discriminate.
        * intros Sl Sy. split; [split; rewrite <- (l_dirs _ _ _ V); assumption|]. split; [exact (proj1 (proj2 OC))|]. exists [], (jtext j). auto.
        * intros Sl Sy. repeat split. exact (proj1 (proj2 OC)).
      + rewrite <- E2 in *. destruct Cp as [Er [Fc [_ Bd]]]. rewrite (open_file _ _ _ Ns Fs Now) in O. injection O as <-. cbn [length] in Er. rewrite Nat.add_0_r in Er. subst r. apply (lquiet_step faults w' P i j); try assumption.
        * split; [lia|]. split; [exact Fc|]. split.
          -- intros p z X. apply (source_bytes j now Ij Kn). rewrite <- (firstn_skipn k now). assert (k <= length now) by (apply (f_equal (@length Z)) in Sk; rewrite skipn_length, app_length in Sk; destruct c; [contradiction|cbn in Sk; lia]).
             rewrite nth_error_app2 by (rewrite firstn_length; lia). rewrite firstn_length, Nat.min_l by lia. replace (k + p - k) with p by lia. rewrite Sk. rewrite nth_error_app1; [exact X|]. apply nth_error_Some. congruence.
          -- right. apply (f_equal (@length Z)) in Sk. rewrite skipn_length, app_length in Sk. destruct (source_length j now Ij Kn) as [t [F Lt]]; [intros ->; destruct c; [contradiction|cbn in Sk; lia]|]. exists t. split; [exact F|]. destruct c; [contradiction|cbn in *; lia].
        * intros Sl Sy. destruct (Al Sl Sy) as [X1 [X2 [done [rest [T [Ld _]]]]]]. split; [exact X1|]. split; [exact X2|]. pose proof (is_file_unique _ _ _ _ (Ste Sy) Now) as En. rewrite <- En, T, <- Ld, skipn_app, skipn_all, Nat.sub_diag in Sk. cbn [app skipn] in Sk. exists done, after. rewrite T, Sk. auto.
        * intros Sl Sy. exfalso. destruct (It Sl Sy) as [_ [-> [_ X]]]. rewrite Sy in Now. rewrite (is_file_unique _ _ _ _ Now X) in Sk. destruct c; [contradiction|discriminate].
        * left. do 3 eexists. symmetry. exact E2.
      + rewrite <- E2 in *. destruct Cp as [Er [[old' Fc] [By Bd]]]. rewrite (open_file _ _ _ Nt Ft Fc) in O. injection O as ->. destruct (create_dirs _ _ _ _ Nt Ft C) as [OC _]. rewrite app_length in Er. apply (lwrite_step faults w P i j (overlay old k a) w'); try assumption.
        * split; [lia|]. split; [exists (overlay old k a); exact (proj1 (proj2 OC))|]. split; [|exact Bd]. intros p z X. rewrite <- Nat.add_assoc. apply By. rewrite nth_error_app2 by lia. replace (length a + p - length a) with p by lia. exact X.
        * intros n z X. apply nth_overlay in X. destruct X as [X|[[-> L]|[L X]]].
          -- destruct (l_bytes _ _ _ V (jtgt j)) as [[_ R]|Y]; [|exact (Y old Fc n z X)]. destruct (R i j Nj eq_refl); congruence.
          -- destruct Bd as [Bd|[t [F Lt]]]; [lia|]. exists t. split; [exact F|]. right. split; [reflexivity|lia].
          -- replace n with (k + (n - k)) by lia. apply By. rewrite nth_error_app1; [exact X|]. apply nth_error_Some. congruence.
        * intros Sl Sy. destruct (Al Sl Sy) as [X1 [X2 [done [rest [T [Ld _]]]]]]. split; [exact X1|]. split.
          -- rewrite (is_file_unique _ _ _ _ Fc X2) in OC. destruct OC as [_ [OC _]]. rewrite T in OC |- *. rewrite <- Ld in OC |- *. rewrite firstn_app, firstn_all, Nat.sub_diag, firstn_O, app_nil_r in OC. rewrite overlay_end in OC.
             rewrite <- !app_assoc, app_assoc. rewrite <- app_length, firstn_app, firstn_all, Nat.sub_diag, firstn_O, app_nil_r. exact OC.
          -- exists (done ++ a), rest. rewrite T, <- !app_assoc. rewrite !app_length. split; [reflexivity|]. lia.
        * intros Sl Sy. exfalso. destruct (It Sl Sy) as [_ [_ [X _]]]. destruct a; [contradiction|discriminate].
      + rewrite <- E2 in *. destruct Cp as [Er [Fc [_ Bd]]]. rewrite (open_file _ _ _ Ns Fs Now) in O. injection O as <-. apply (lquiet_step faults w' P i j); try assumption; [left; reflexivity| | |left; do 3 eexists; symmetry; (exact E1 || exact E2)].
        * intros Sl Sy. destruct (Al Sl Sy) as [X1 [X2 [done [rest [T [Ld _]]]]]]. split; [exact X1|]. exists k. split; [exact X2|]. intros _. cbn [length app] in *. rewrite Nat.add_0_r in Er. rewrite <- (is_file_unique _ _ _ _ (Ste Sy) Now) in L. apply firstn_all2. lia.
        * intros Sl Sy. destruct (It Sl Sy) as [_ [_ [_ X]]]. split; [reflexivity|exact X].
    - destruct (job_at jobs _ _ _ Nc) as [j [Nj [Ij [-> ->]]]]. pose proof (l_mine _ _ _ V i j) as Al. pose proof (l_itself _ _ _ V i j) as It. inversion Fl as [r k buf E1 E2]; subst. rewrite <- E1 in *. apply (lquiet_step true w P i j); try assumption; [left; reflexivity| | |left; do 3 eexists; symmetry; (exact E1 || exact E2)].
      + intros Sl Sy. destruct (Al Sl Sy) as [X1 [X2 _]]. split; [exact X1|]. exists k. split; [exact X2|discriminate].
      + intros Sl Sy. destruct (It Sl Sy) as [_ [_ [_ X]]]. split; [reflexivity|exact X].
  Qed.
End Jobs.
Lemma reached_linv w jobs faults w' P : startable w jobs -> reached jobs faults w w' P -> linv w jobs faults w' P.
Proof.
  intros Pr [n H]. remember (w, all_ready) as s eqn:Es. remember (w', P) as s' eqn:Es'. revert w' P Es'. induction H as [s|n s s1 s2 H IH St]; intros w' P Es'; subst; [injection Es' as <- <-; apply linv_start|].
  destruct s1 as [w1 P1]. exact (linv_step w jobs Pr faults _ _ St (IH eq_refl _ _ eq_refl)).
Qed.

(** ** Theorems *)
(** Inserts running together whose sources are anywhere, stopped at any moment, with any calls failing: directories and all files but the targets are as they were, no file
    is lost, and a target is as it was or made of bytes of the texts that flow into it, at their places, and zeros; so no file grows beyond the longest source. *)
Theorem C78_anywhere w jobs faults w' P : startable w jobs -> reached jobs faults w w' P ->
  cwd w' = cwd w /\ (forall ms, is_dir w' ms <-> is_dir w ms) /\ (forall ms, (forall j, In j jobs -> jtgt j <> ms) -> untouched w w' ms) /\ (forall f c, is_file w f c -> exists c', is_file w' f c') /\
  (forall f, untouched w w' f \/ forall c, is_file w' f c -> length c <= longest jobs /\ forall i z, nth_error c i = Some z -> from_some_text jobs f i z).
Proof.
  intros Pr R. pose proof (reached_linv _ _ _ _ _ Pr R) as V. split; [apply V|]. split; [apply V|]. split; [apply V|]. split; [apply V|]. intros f. destruct (l_bytes _ _ _ _ _ V f) as [[U _]|Y]; [left; exact U|right; intros c F; split; [|intros i z; apply Y; exact F]].
  destruct c as [|z0 c0] eqn:Ec; [apply Nat.le_0_l|]. rewrite <- Ec in *. assert (N : c <> []) by (rewrite Ec; discriminate). destruct (exists_last N) as [l [z E]]. destruct (Y c F (length l) z) as [t [Fl X]]; [rewrite E, nth_error_app2, Nat.sub_diag by lia; reflexivity|].
  pose proof (flows_longest jobs _ _ Fl) as Lt. rewrite E, app_length. cbn [length]. assert (length l < length t) by (destruct X as [X|[_ X]]; [apply nth_error_Some; congruence|exact X]). lia.
Qed.
(** An insert whose source nothing writes and whose target no other has is as good as alone, whatever the others do with their sources and targets. *)
Theorem C78_own_target w jobs faults w' P i j : startable w jobs -> reached jobs faults w w' P -> sole jobs i j -> steady jobs j ->
  match P i with
  | Ready => untouched w w' (jtgt j)
  | Copying _ _ _ => creatable w (jtgt j) /\ exists written after, jtext j = written ++ after /\ is_file w' (jtgt j) written
  | Returned ECreate => untouched w w' (jtgt j) /\ ~ creatable w (jtgt j)
  | Returned e => e = ENil /\ creatable w (jtgt j) /\ exists written after, jtext j = written ++ after /\ is_file w' (jtgt j) written /\ (faults = false -> after = [])
  end.
Proof.
  intros Pr R Sl Sy. pose proof (reached_linv _ _ _ _ _ Pr R) as V. pose proof (l_mine _ _ _ _ _ V i j Sl Sy) as A. pose proof (l_work _ _ _ _ _ V i j (proj1 Sl)) as C. destruct (P i) as [|r k buf|e]; [exact A| |].
  - destruct A as [A1 [A2 _]]. split; [exact A1|]. exists (firstn k (jtext j)), (skipn k (jtext j)). split; [symmetry; apply firstn_skipn|exact A2].
  - destruct C as [->| ->]; [|exact A]. destruct A as [A1 [k [A2 A3]]]. split; [reflexivity|]. split; [exact A1|]. exists (firstn k (jtext j)), (skipn k (jtext j)). split; [symmetry; apply firstn_skipn|]. split; [exact A2|].
    intros Hf. specialize (A3 Hf). pose proof (firstn_skipn k (jtext j)) as X. rewrite A3 in X. rewrite <- (app_nil_r (jtext j)) in X at 3. apply app_inv_head in X. exact X.
Qed.
(** An entry inserted from itself is empty as soon as the insert has begun, and no error is returned. *)
Theorem C78_itself w jobs faults w' P i j : startable w jobs -> reached jobs faults w w' P -> sole jobs i j -> jsrc j = jtgt j ->
  match P i with Ready => is_file w' (jtgt j) (jtext j) | Copying _ _ _ => is_file w' (jtgt j) [] | Returned e => e = ENil /\ is_file w' (jtgt j) [] end.
Proof.
  intros Pr R Sl E. pose proof (reached_linv _ _ _ _ _ Pr R) as V. pose proof (l_itself _ _ _ _ _ V i j Sl E) as A. unfold startable in Pr. rewrite Forall_forall in Pr. destruct (Pr j (nth_error_In _ _ (proj1 Sl))) as [_ [_ [_ [_ H]]]].
  destruct (P i) as [|r k buf|e]; cbn in A; [apply A; rewrite <- E; exact H|tauto|exact A].
Qed.
(** No insert gets stuck, and all end, even those that read what others (or they themselves) write. *)
Theorem C78_not_stuck w jobs faults w' P i j : startable w jobs -> reached jobs faults w w' P -> nth_error jobs i = Some j ->
  (exists e, P i = Returned e) \/ exists w'' ph, cstep (map call_of jobs) false (w', P) (w'', upd P i ph).
Proof.
  intros Pr R Nj. pose proof (reached_linv _ _ _ _ _ Pr R) as V. assert (Ij : In j jobs) by (eapply nth_error_In; exact Nj). destruct (source_now w jobs Pr _ _ _ _ V Ij) as [now [Src _]]. pose proof Pr as Pr'. unfold startable in Pr'. rewrite Forall_forall in Pr'. destruct (Pr' j Ij) as [Ns [Fs [Nt [Ft _]]]].
  assert (Nc : nth_error (map call_of jobs) i = Some (abs_path (jsrc j), abs_path (jtgt j))) by (rewrite nth_error_map, Nj; reflexivity).
  pose proof (l_work _ _ _ _ _ V i j Nj) as C. destruct (P i) as [|r k buf|e] eqn:Pi; [right|right|left; eauto].
  - destruct (create w' (abs_path (jtgt j)) []) as [w1|] eqn:Cr.
    + exists w1, (Copying 0 0 []). eapply c_step; [exact Nc|]. rewrite Pi. apply i_create. exact Cr.
    + exists w', (Returned ECreate). eapply c_step; [exact Nc|]. rewrite Pi. apply i_refused. exact Cr.
  - destruct C as [Er [[old Fc] _]]. pose proof (open_file _ _ _ Ns Fs Src) as O. destruct buf as [|b buf].
    + destruct (skipn r now) as [|z rest] eqn:Sk.
      * exists w', (Returned ENil). eapply c_step; [exact Nc|]. rewrite Pi. eapply i_eof; [exact O|]. apply (f_equal (@length Z)) in Sk. rewrite skipn_length in Sk. cbn in Sk. lia.
      * exists w', (Copying (r + length (z :: rest)) k (z :: rest)). eapply c_step; [exact Nc|]. rewrite Pi. eapply i_read with (after := []); [exact O| |discriminate]. rewrite app_nil_r. exact Sk.
    + destruct (create w' (abs_path (jtgt j)) (overlay old k (b :: buf))) as [w1|] eqn:Cr.
      * exists w1, (Copying r (k + length (b :: buf)) []). eapply c_step; [exact Nc|]. rewrite Pi. rewrite <- (app_nil_r (b :: buf)) at 1. eapply i_write; [discriminate|apply open_file; eassumption|exact Cr].
      * exfalso. apply (create_possible w' (jtgt j)) in Cr; [|assumption|assumption]. apply Cr. exact (file_creatable _ _ _ Nt Fc).
Qed.
(** The steps left to a job, m being the length of the longest source. *)
Definition left_over (m : nat) (ph : Phase) : nat := match ph with Ready => 2 * m + 2 | Copying r _ buf => 2 * (m - r) + length buf + 1 | Returned _ => 0 end.
Fixpoint sum_over (m n : nat) (P : nat -> Phase) (i : nat) : nat := match n with 0 => 0 | S n' => left_over m (P i) + sum_over m n' P (S i) end.
Lemma sum_upd m ph : forall n P i i0, i < n -> left_over m ph < left_over m (P (i0 + i)) -> sum_over m n (upd P (i0 + i) ph) i0 < sum_over m n P i0.
Proof.
  assert (Same : forall n P i i0, i < i0 -> sum_over m n (upd P i ph) i0 = sum_over m n P i0).
  { induction n as [|n IH]; intros P i i0 L; [reflexivity|]. cbn [sum_over]. rewrite IH by lia. unfold upd at 1. destruct (Nat.eqb_spec i0 i); [lia|reflexivity]. }
  induction n as [|n IH]; intros P i i0 Ln L; [lia|]. cbn [sum_over]. destruct i as [|i].
  - rewrite Nat.add_0_r in *. rewrite Same by lia. unfold upd. rewrite Nat.eqb_refl. lia.
  - replace (i0 + S i) with (S i0 + i) in * by lia. pose proof (IH P i (S i0) ltac:(lia) L) as X. unfold upd at 1. destruct (Nat.eqb_spec i0 (S i0 + i)); lia.
Qed.
Theorem C78_ends w jobs faults n s : startable w jobs -> csteps (map call_of jobs) faults n (w, all_ready) s -> n <= length jobs * (2 * longest jobs + 2).
Proof.
  intros Pr H. set (m := longest jobs). assert (G : n + sum_over m (length jobs) (snd s) 0 <= sum_over m (length jobs) all_ready 0).
  { remember (w, all_ready) as s0 eqn:E. induction H as [s0|n s0 s1 s2 H IH St]; subst; [apply le_n|]. specialize (IH eq_refl). destruct s1 as [w1 P1]. pose proof (reached_linv w jobs faults w1 P1 Pr (ex_intro _ n H)) as V. cbn [snd] in IH. enough (sum_over m (length jobs) (snd s2) 0 < sum_over m (length jobs) P1 0) by lia. clear IH H.
    inversion St as [w2 P i src tgt w' ph Nc Si|w2 P i src tgt ph Hf Nc Fl]; subst; cbn [snd]; destruct (job_at jobs _ _ _ Nc) as [j [Nj [Ij [-> ->]]]]; (apply (sum_upd m ph (length jobs) P1 i 0); [apply nth_error_Some; congruence|]; cbn [Nat.add]).
    - pose proof (linv_step w jobs Pr faults _ _ St V) as V'. cbn [fst snd] in V'. pose proof (l_work _ _ _ _ _ V' i j Nj) as C'. unfold upd in C'. rewrite Nat.eqb_refl in C'.
      inversion Si as [w1' Cr E1 E2 E3 E4|w1' w1'' Cr E1 E2 E3 E4|w1' content r k c after O Sk Nn E1 E2 E3 E4|w1' old w1'' r k a b Na O Cr E1 E2 E3 E4|w1' content r k O L E1 E2 E3 E4]; subst; try rewrite <- E2; try rewrite <- E1; cbn [left_over length]; try lia.
      + destruct C' as [_ [_ [_ Bd]]]. assert (r + length c <= m) by (destruct Bd as [Bd|[t [F Lt]]]; [lia|]; pose proof (flows_longest jobs _ _ F); fold m in H; lia). destruct c; [contradiction|]. cbn [length] in *. lia.
      + rewrite app_length. destruct a; [contradiction|]. cbn [length]. lia.
    - inversion Fl as [r k buf E1 E2]; subst. cbn [left_over]. lia. }
  assert (T : forall l i, sum_over m l all_ready i = l * (2 * m + 2)).
  { induction l as [|l IH]; intros i; [reflexivity|]. cbn [sum_over]. rewrite IH. cbn. lia. }
  rewrite T in G. lia.
Qed.
(** Two inserts that exchange two entries: all calls succeeding and both returning without error, both entries can end up empty. *)
Theorem C78_exchange_refuted w a b : startable w [a; b] -> jsrc a = jtgt b -> jsrc b = jtgt a -> jtgt a <> jtgt b ->
  exists w' P, reached [a; b] false w w' P /\ P 0 = Returned ENil /\ P 1 = Returned ENil /\ is_file w' (jtgt a) [] /\ is_file w' (jtgt b) [].
Proof.
  intros Pr Eab Eba N. pose proof Pr as Pr'. inversion Pr' as [|? ? [Nsa [Fsa [Nta [Fta Sa]]]] Pr2]; subst. inversion Pr2 as [|? ? [Nsb [Fsb [Ntb [Ftb Sb]]]] _]; subst. rewrite Eab in Sa. rewrite Eba in Sb.
  destruct (create w (abs_path (jtgt a)) []) as [w1|] eqn:C1; [|exfalso; apply (proj1 (create_possible w (jtgt a) [] Nta Fta) C1); exact (file_creatable _ _ _ Nta Sb)]. destruct (create_effect _ _ _ _ Nta Fta C1) as [_ [F1 [Fo1 _]]]. apply (Fo1 (jtgt b)) in Sa; [|congruence].
  destruct (create w1 (abs_path (jtgt b)) []) as [w2|] eqn:C2; [|exfalso; apply (proj1 (create_possible w1 (jtgt b) [] Ntb Ftb) C2); exact (file_creatable _ _ _ Ntb Sa)]. destruct (create_effect _ _ _ _ Ntb Ftb C2) as [_ [F2 [Fo2 _]]]. apply (Fo2 (jtgt a)) in F1; [|exact N].
  set (P1 := upd all_ready 0 (Copying 0 0 [])). set (P2 := upd P1 1 (Copying 0 0 [])). set (P3 := upd P2 0 (Returned ENil)). exists w2, (upd P3 1 (Returned ENil)). split; [|split; [reflexivity|split; [reflexivity|split; assumption]]].
  exists 4. eapply cs_more with (s' := (w2, P3)); [eapply cs_more with (s' := (w2, P2)); [eapply cs_more with (s' := (w1, P1)); [eapply cs_more with (s' := (w, all_ready)); [constructor|]|]|]|].
  - eapply c_step with (i := 0); [reflexivity|]. apply i_create. exact C1.
  - eapply c_step with (i := 1); [reflexivity|]. apply i_create. exact C2.
  - eapply c_step with (i := 0); [reflexivity|]. apply (i_eof _ _ w2 [] 0 0); [|apply le_n]. rewrite Eab. apply open_file; assumption.
  - eapply c_step with (i := 1); [reflexivity|]. apply (i_eof _ _ w2 [] 0 0); [|apply le_n]. rewrite Eba. apply open_file; assumption.
Qed.
(** ** Examples: the hypotheses are met; one job's source being another's target, its own target, and not written. *)
Example C78_case : exists w a b c, startable w [a; b; c] /\ jsrc a = jtgt b /\ jsrc b = jtgt a /\ jtgt a <> jtgt b /\ startable w [a; b] /\ sole [a; b; c] 2 c /\ jsrc c = jtgt c /\ jtext c <> [] /\ sole [a] 0 a /\ steady [a] a /\ startable w [a] /\ flows [a; b] (jtgt a) (jtext b).
Proof.
  set (f := fun x => [lit "v"; x]). set (w := {| tree := [(lit "v", Dir [(lit "a", File (lit "one")); (lit "b", File (lit "two")); (lit "c", File (lit "three"))])]; cwd := [] |}).
  exists w, {| jsrc := f (lit "b"); jtgt := f (lit "a"); jtext := lit "two" |}, {| jsrc := f (lit "a"); jtgt := f (lit "b"); jtext := lit "one" |}, {| jsrc := f (lit "c"); jtgt := f (lit "c"); jtext := lit "three" |}.
  assert (N1 : forall s, s = lit "a" \/ s = lit "b" \/ s = lit "c" \/ s = lit "v" -> normal s).
  { intros s H. repeat split; intros E; subst; repeat (destruct H as [H|H]; [try discriminate; subst; cbn in E; repeat (destruct E as [E|E]; [discriminate E|]); exact E|]); try discriminate; subst; cbn in E; repeat (destruct E as [E|E]; [discriminate E|]); exact E. }
  assert (Sa : startable w [{| jsrc := f (lit "b"); jtgt := f (lit "a"); jtext := lit "two" |}; {| jsrc := f (lit "a"); jtgt := f (lit "b"); jtext := lit "one" |}; {| jsrc := f (lit "c"); jtgt := f (lit "c"); jtext := lit "three" |}]).
  { unfold startable. repeat constructor; try discriminate; try reflexivity; try (apply N1; tauto). }
  split; [exact Sa|]. unfold startable in *. inversion Sa as [|? ? Sa1 Sa2]; subst. inversion Sa2 as [|? ? Sa3 _]; subst. repeat split; try discriminate; try reflexivity; auto.
  - intros [|[|[|k]]] j' H E; try reflexivity; [inversion H; subst; discriminate E|inversion H; subst; discriminate E|destruct k; discriminate H].
  - intros [|[|k]] j' H E; try reflexivity; discriminate.
  - intros k [<-|[]]. discriminate.
  - apply (fl_through _ {| jsrc := f (lit "b"); jtgt := f (lit "a"); jtext := lit "two" |}); [left; reflexivity|]. apply (fl_source _ {| jsrc := f (lit "a"); jtgt := f (lit "b"); jtext := lit "one" |}). right. left. reflexivity.
Qed.

Print Assumptions C78_anywhere.
Print Assumptions C78_own_target.
Print Assumptions C78_itself.
Print Assumptions C78_not_stuck.
Print Assumptions C78_ends.
Print Assumptions C78_exchange_refuted.
