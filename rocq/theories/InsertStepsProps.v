(** * C76: insert under crashes, failing calls and other inserts. *)
From Coq Require Import String.
From Coq Require Import ZArith Arith List Bool Lia.
From Verif Require Import GoStr FsModel RepoSpec FsProofs CmdModel CmdSpec FsWrite InsertSteps.
Import ListNotations.
Open Scope nat_scope.

(** ** Specification *)
(** An insert: the names of source and target from "/", and the source's content. *)
Record Job := { jsrc : list str; jtgt : list str; jtext : str }.
Definition call_of (j : Job) : str * str := (abs_path (jsrc j), abs_path (jtgt j)).
(** The jobs can start in w: the sources are files, and none of them is a target. *)
Definition prepared (w : World) (jobs : list Job) : Prop :=
  Forall (fun j => jsrc j <> [] /\ Forall normal (jsrc j) /\ jtgt j <> [] /\ Forall normal (jtgt j) /\ is_file w (jsrc j) (jtext j) /\ Forall (fun k => jsrc j <> jtgt k) jobs) jobs.
(** A state reached after any number of steps. *)
Definition reached (jobs : list Job) (faults : bool) (w w' : World) (P : nat -> Phase) : Prop := exists n, csteps (map call_of jobs) faults n (w, all_ready) (w', P).
(** No other job has the i-th job's target. *)
Definition sole (jobs : list Job) (i : nat) (j : Job) : Prop := nth_error jobs i = Some j /\ forall k j', nth_error jobs k = Some j' -> jtgt j' = jtgt j -> k = i.
(** The target is as it was in w. *)
Definition untouched (w w' : World) (f : list str) : Prop := forall c, is_file w' f c <-> is_file w f c.
Definition creatable (w : World) (f : list str) : Prop := is_dir w (removelast f) /\ ~ is_dir w f.
(** A byte that one of the jobs for f can have put at position i: the source's byte there, or a zero before its end. *)
Definition from_some_job (jobs : list Job) (f : list str) (i : nat) (z : Z) : Prop :=
  exists j, In j jobs /\ jtgt j = f /\ (nth_error (jtext j) i = Some z \/ (z = 0%Z /\ i < length (jtext j))).

(** ** Proofs *)
Lemma nth_overlay old k a i z : nth_error (overlay old k a) i = Some z ->
  nth_error old i = Some z \/ (z = 0%Z /\ i < k) \/ (k <= i /\ nth_error a (i - k) = Some z).
Proof.
  unfold overlay. intros H. destruct (Nat.lt_ge_cases i (length (firstn k old))) as [L|L].
  - rewrite nth_error_app1 in H by exact L. left. rewrite <- (firstn_skipn k old). rewrite nth_error_app1 by exact L. exact H.
  - rewrite nth_error_app2 in H by exact L. rewrite firstn_length in *. destruct (Nat.lt_ge_cases (i - Nat.min k (length old)) (k - length old)) as [L2|L2].
    + rewrite nth_error_app1 in H by (rewrite repeat_length; exact L2). apply nth_error_In, repeat_spec in H. right. left. split; [exact H|lia].
    + rewrite nth_error_app2 in H by (rewrite repeat_length; exact L2). rewrite repeat_length in H. assert (K : i - Nat.min k (length old) - (k - length old) = i - k /\ k <= i) by lia. destruct K as [K1 K2]. rewrite K1 in H.
      destruct (Nat.lt_ge_cases (i - k) (length a)) as [L3|L3]; [rewrite nth_error_app1 in H by exact L3; auto|]. rewrite nth_error_app2 in H by exact L3. left.
      destruct (Nat.lt_ge_cases (length old) (k + length a)) as [L4|L4]; [rewrite (skipn_all2 old) in H by lia; destruct (i - k - length a); discriminate|].
      rewrite <- (firstn_skipn (k + length a) old). rewrite nth_error_app2 by (rewrite firstn_length; lia). rewrite firstn_length. replace (i - Nat.min (k + length a) (length old)) with (i - k - length a) by lia. exact H.
Qed.
Lemma overlay_end w a : overlay w (length w) a = w ++ a.
Proof. unfold overlay. rewrite firstn_all, Nat.sub_diag. cbn [repeat app]. rewrite skipn_all2 by lia. rewrite app_nil_r. reflexivity. Qed.
Lemma only_change_dirs w w' f c : only_change w w' f c -> ~ is_dir w f -> forall ms, is_dir w' ms <-> is_dir w ms.
Proof.
  intros [_ [F [_ D]]] N ms. destruct (list_eq_dec str_dec ms f) as [->|Ne]; [|apply D; exact Ne]. split; intros H; [exfalso; exact (file_not_dir _ _ _ F H)|contradiction].
Qed.
Lemma is_file_unique w f c c' : is_file w f c -> is_file w f c' -> c = c'.
Proof. unfold is_file. congruence. Qed.
Lemma open_file w f c : f <> [] -> Forall normal f -> is_file w f c -> open_read w (abs_path f) = Some c.
Proof. intros N F H. unfold open_read. rewrite lookup_abs by assumption. unfold is_file in H. rewrite H. reflexivity. Qed.

Section Jobs.
  Variables (w0 : World) (jobs : list Job).
  Hypothesis Prep : prepared w0 jobs.
  Let prep j : In j jobs -> jsrc j <> [] /\ Forall normal (jsrc j) /\ jtgt j <> [] /\ Forall normal (jtgt j) /\ is_file w0 (jsrc j) (jtext j) /\ forall k, In k jobs -> jsrc j <> jtgt k.
  Proof. intros I. unfold prepared in Prep. rewrite Forall_forall in Prep. destruct (Prep j I) as [A [B [C [D [E F]]]]]. rewrite Forall_forall in F. auto 8. Qed.
  Lemma job_at i src tgt : nth_error (map call_of jobs) i = Some (src, tgt) -> exists j, nth_error jobs i = Some j /\ In j jobs /\ src = abs_path (jsrc j) /\ tgt = abs_path (jtgt j).
  Proof. intros H. rewrite nth_error_map in H. destruct (nth_error jobs i) as [j|] eqn:E; [|discriminate]. injection H as <- <-. exists j. split; [reflexivity|]. split; [eapply nth_error_In; exact E|auto]. Qed.

  (** A job that is copying has read a beginning of its text and written all but the buffer. *)
  Definition copying (w : World) (j : Job) (ph : Phase) : Prop :=
    match ph with
    | Copying r k buf => (exists rest, exists done, jtext j = done ++ buf ++ rest /\ length done = k /\ r = k + length buf) /\ exists c, is_file w (jtgt j) c
    | Returned e => e = ENil \/ e = ECreate
    | Ready => True
    end.
  (** The part of the text that has been written. *)
  Definition alone (faults : bool) (w : World) (j : Job) (ph : Phase) : Prop :=
    match ph with
    | Ready => untouched w0 w (jtgt j)
    | Copying r k buf => creatable w0 (jtgt j) /\ is_file w (jtgt j) (firstn k (jtext j))
    | Returned ECreate => untouched w0 w (jtgt j) /\ ~ creatable w0 (jtgt j)
    | Returned _ => creatable w0 (jtgt j) /\ exists k, is_file w (jtgt j) (firstn k (jtext j)) /\ (faults = false -> firstn k (jtext j) = jtext j)
    end.
  Record inv (faults : bool) (w : World) (P : nat -> Phase) : Prop := {
    v_cwd : cwd w = cwd w0;
    v_dirs : forall ms, is_dir w ms <-> is_dir w0 ms;
    v_files : forall ms, (forall j, In j jobs -> jtgt j <> ms) -> untouched w0 w ms;
    v_copy : forall i j, nth_error jobs i = Some j -> copying w j (P i);
    v_bytes : forall f, (untouched w0 w f /\ forall i j, nth_error jobs i = Some j -> jtgt j = f -> P i = Ready \/ P i = Returned ECreate) \/ (forall c, is_file w f c -> forall i z, nth_error c i = Some z -> from_some_job jobs f i z);
    v_alone : forall i j, sole jobs i j -> alone faults w j (P i) }.
  Lemma inv_start faults : inv faults w0 all_ready.
  Proof. split; intros; try reflexivity; try exact I; try (intros c; reflexivity). left. split; [intros c; reflexivity|]. intros i j _ _. left. reflexivity. Qed.
  Lemma create_dirs w f c w' : f <> [] -> Forall normal f -> create w (abs_path f) c = Some w' -> only_change w w' f c /\ is_dir w (removelast f) /\ ~ is_dir w f.
  Proof.
    intros N F C. split; [apply create_effect; assumption|]. pose proof (create_possible w f c N F) as [_ X].
    assert (D : ~ ~ (is_dir w (removelast f) /\ ~ is_dir w f)) by (intros Y; rewrite (X Y) in C; discriminate). unfold is_dir in *. destruct (node_at w (removelast f)) as [[]| |] eqn:E1; destruct (node_at w f) as [[]| |] eqn:E2;
      try (exfalso; apply D; intros [[es Y] _]; discriminate); try (split; [eexists; reflexivity|intros [es Y]; discriminate]); exfalso; apply D; intros [_ Y]; apply Y; eexists; reflexivity.
  Qed.
  Lemma write_step faults w P i j c w' ph : nth_error jobs i = Some j -> inv faults w P -> create w (abs_path (jtgt j)) c = Some w' ->
    copying w' j ph -> (forall n z, nth_error c n = Some z -> from_some_job jobs (jtgt j) n z) -> (sole jobs i j -> alone faults w' j ph) -> inv faults w' (upd P i ph).
  Proof.
    intros Nj V C Cp By Al. assert (Ij : In j jobs) by (eapply nth_error_In; exact Nj). destruct (prep j Ij) as [_ [_ [Nt [Ft _]]]]. destruct (create_dirs _ _ _ _ Nt Ft C) as [OC [_ ND]]. pose proof (only_change_dirs _ _ _ _ OC ND) as Dr. destruct OC as [Cw [Fi [Fo _]]].
    assert (Dirs : forall ms, is_dir w' ms <-> is_dir w0 ms) by (intros ms; rewrite Dr; apply (v_dirs _ _ _ V)). constructor.
    - rewrite Cw. apply (v_cwd _ _ _ V).
    - exact Dirs.
    - intros ms Nm c'. rewrite Fo by (intros E; apply (Nm j Ij); auto). apply (v_files _ _ _ V ms Nm).
    - intros k jk Nk. unfold upd. destruct (Nat.eqb_spec k i) as [->|Ne]; [rewrite Nj in Nk; injection Nk as <-; exact Cp|]. pose proof (v_copy _ _ _ V k jk Nk) as X. destruct (P k) as [|r0 k0 b0|e0]; [exact I| |exact X]. destruct X as [A [c0 B]]. split; [exact A|].
      destruct (list_eq_dec str_dec (jtgt jk) (jtgt j)) as [E|E]; [rewrite E; eauto|]. exists c0. apply Fo; assumption.
    - intros f. destruct (list_eq_dec str_dec f (jtgt j)) as [->|E]; [right; intros c' H; rewrite (is_file_unique _ _ _ _ H Fi); exact By|]. destruct (v_bytes _ _ _ V f) as [[U R]|Y]; [left|right].
      + split; [intros c'; rewrite Fo by exact E; apply U|]. intros k jk Nk Ek. unfold upd. destruct (Nat.eqb_spec k i) as [->|Ne]; [rewrite Nj in Nk; injection Nk as <-; congruence|apply (R k jk Nk Ek)].
      + intros c' H. apply Fo in H; [|exact E]. apply Y. exact H.
    - intros k jk Sk. unfold upd. destruct (Nat.eqb_spec k i) as [->|Ne]; [destruct Sk as [Nk Sk]; rewrite Nj in Nk; injection Nk as <-; apply Al; split; [exact Nj|exact Sk]|].
      assert (E : jtgt jk <> jtgt j) by (intros E; apply Ne; symmetry; apply (proj2 Sk i j Nj); auto). pose proof (v_alone _ _ _ V k jk Sk) as X.
      assert (Un : untouched w w' (jtgt jk)) by (intros c0; apply Fo; exact E). destruct (P k) as [|r0 k0 b0|e0]; cbn [alone] in *.
      + intros c0. rewrite (Un c0). apply X.
      + split; [apply X|]. apply Un. apply X.
      + destruct e0; try (destruct X as [X1 [k1 [X2 X3]]]; split; [exact X1|]; exists k1; split; [apply Un; exact X2|exact X3]). destruct X as [X1 X2]. split; [|exact X2]. intros c0. rewrite (Un c0). apply X1.
  Qed.
  Lemma quiet_step faults w P i j ph : nth_error jobs i = Some j -> inv faults w P -> copying w j ph -> (sole jobs i j -> alone faults w j ph) -> ((exists r k buf, P i = Copying r k buf) \/ ph = Returned ECreate) -> inv faults w (upd P i ph).
  Proof.
    intros Nj V Cp Al Hp. constructor; try apply V.
    - intros k jk Nk. unfold upd. destruct (Nat.eqb_spec k i) as [->|Ne]; [rewrite Nj in Nk; injection Nk as <-; exact Cp|apply (v_copy _ _ _ V k jk Nk)].
    - intros f. destruct (v_bytes _ _ _ V f) as [[U R]|Y]; [left|right; exact Y]. split; [exact U|]. intros k jk Nk Ek. unfold upd. destruct (Nat.eqb_spec k i) as [->|Ne]; [|exact (R k jk Nk Ek)]. destruct Hp as [[r [k0 [buf Hp]]]|Hp]; [|right; exact Hp].
      destruct (R i jk Nk Ek); congruence.
    - intros k jk Sk. unfold upd. destruct (Nat.eqb_spec k i) as [->|Ne]; [destruct Sk as [Nk Sk]; rewrite Nj in Nk; injection Nk as <-; apply Al; split; assumption|apply (v_alone _ _ _ V k jk Sk)].
  Qed.
  Lemma source_still w faults P j : inv faults w P -> In j jobs -> is_file w (jsrc j) (jtext j).
  Proof. intros V Ij. destruct (prep j Ij) as [_ [_ [_ [_ [H D]]]]]. apply (v_files _ _ _ V (jsrc j)); [|exact H]. intros k Ik E. exact (D k Ik (eq_sym E)). Qed.
  Lemma inv_step faults s s' : cstep (map call_of jobs) faults s s' -> inv faults (fst s) (snd s) -> inv faults (fst s') (snd s').
  Proof.
    intros H V. destruct H as [w P i src tgt w' ph Nc St|w P i src tgt ph Hf Nc Fl]; cbn [fst snd] in *.
    - destruct (job_at _ _ _ Nc) as [j [Nj [Ij [-> ->]]]]. destruct (prep j Ij) as [Ns [Fs [Nt [Ft [Hs Ds]]]]]. pose proof (source_still w faults P j V Ij) as Src. pose proof (v_copy _ _ _ V i j Nj) as Cp. pose proof (v_alone _ _ _ V i j) as Al. inversion St as [w1 C E1 E2 E3 E4|w1 w1' C E1 E2 E3 E4|w1 content r k c after O Sk Nn E1 E2 E3 E4|w1 old w1' r k a b Na O C E1 E2 E3 E4|w1 content r k O L E1 E2 E3 E4]; subst.
      + apply (quiet_step faults w' P i j); try assumption; [right; reflexivity| |right; reflexivity]. intros Sl. specialize (Al Sl). rewrite <- E2 in Al. split; [exact Al|]. intros X. pose proof (proj1 (create_possible w' (jtgt j) [] Nt Ft) C) as Y. apply Y. unfold creatable in X. rewrite <- !(v_dirs _ _ _ V) in X. exact X.
      + destruct (create_dirs _ _ _ _ Nt Ft C) as [OC [D1 D2]]. apply (write_step faults w P i j [] w'); try assumption.
        * split; [exists (jtext j), []; split; [reflexivity|split; reflexivity]|exists []; exact (proj1 (proj2 OC))].
        * intros n z X. destruct n; discriminate.
        * intros Sl. split; [split; rewrite <- (v_dirs _ _ _ V); assumption|]. cbn [firstn]. exact (proj1 (proj2 OC)).
      + rewrite <- E2 in *. destruct Cp as [[rest [done [T [Ld Er]]]] Fc]. rewrite (open_file _ _ _ Ns Fs Src) in O. injection O as <-. cbn [length app] in *. rewrite Nat.add_0_r in Er. subst r. apply (quiet_step faults w' P i j); try assumption.
        * split; [|exact Fc]. rewrite T, <- Ld, skipn_app, skipn_all, Nat.sub_diag in Sk. cbn [app skipn] in Sk. exists after, done. rewrite T, Sk. split; [reflexivity|]. split; [exact Ld|reflexivity].
        * left. do 3 eexists. symmetry. exact E2.
      + rewrite <- E2 in *. destruct Cp as [[rest [done [T [Ld Er]]]] [old' Fc]]. rewrite (open_file _ _ _ Nt Ft Fc) in O. injection O as ->. destruct (create_dirs _ _ _ _ Nt Ft C) as [OC _]. apply (write_step faults w P i j (overlay old k a) w'); try assumption.
        * split; [|exists (overlay old k a); exact (proj1 (proj2 OC))]. exists rest, (done ++ a). rewrite T, <- !app_assoc. split; [reflexivity|]. rewrite app_length in *. lia.
        * intros n z X. apply nth_overlay in X. destruct X as [X|[[-> L]|[L X]]].
          -- destruct (v_bytes _ _ _ V (jtgt j)) as [[_ R]|Y]; [|exact (Y old Fc n z X)]. destruct (R i j Nj eq_refl); congruence.
          -- exists j. split; [exact Ij|]. split; [reflexivity|]. right. split; [reflexivity|]. rewrite T, app_length. lia.
          -- exists j. split; [exact Ij|]. split; [reflexivity|]. left. rewrite T, nth_error_app2 by lia. rewrite Ld. rewrite <- app_assoc. rewrite nth_error_app1; [exact X|]. apply nth_error_Some. congruence.
        * intros Sl. destruct (Al Sl) as [X1 X2]. split; [exact X1|]. rewrite (is_file_unique _ _ _ _ Fc X2) in OC. destruct OC as [_ [OC _]]. rewrite T in OC |- *. rewrite <- Ld in OC |- *. rewrite firstn_app, firstn_all, Nat.sub_diag, firstn_O, app_nil_r in OC. rewrite overlay_end in OC.
          rewrite <- !app_assoc, app_assoc. rewrite <- app_length, firstn_app, firstn_all, Nat.sub_diag, firstn_O, app_nil_r. exact OC.
      + rewrite <- E2 in *. destruct Cp as [[rest [done [T [Ld Er]]]] Fc]. rewrite (open_file _ _ _ Ns Fs Src) in O. injection O as <-. apply (quiet_step faults w' P i j); try assumption; [left; reflexivity| |left; do 3 eexists; symmetry; (exact E1 || exact E2)].
        intros Sl. destruct (Al Sl) as [X1 X2]. split; [exact X1|]. exists k. split; [exact X2|]. intros _. cbn [length app] in *. rewrite Nat.add_0_r in Er. apply firstn_all2. lia.
    - destruct (job_at _ _ _ Nc) as [j [Nj [Ij [-> ->]]]]. pose proof (v_copy _ _ _ V i j Nj) as Cp. pose proof (v_alone _ _ _ V i j) as Al. inversion Fl as [r k buf E1 E2]; subst. rewrite <- E1 in *. apply (quiet_step true w P i j); try assumption; [left; reflexivity| |left; do 3 eexists; symmetry; (exact E1 || exact E2)].
      intros Sl. destruct (Al Sl) as [X1 X2]. split; [exact X1|]. exists k. split; [exact X2|discriminate].
  Qed.
End Jobs.

Lemma reached_inv w jobs faults w' P : prepared w jobs -> reached jobs faults w w' P -> inv w jobs faults w' P.
Proof.
  intros Pr [n H]. remember (w, all_ready) as s eqn:Es. remember (w', P) as s' eqn:Es'. revert w' P Es'. induction H as [s|n s s1 s2 H IH St]; intros w' P Es'; subst; [injection Es' as <- <-; apply inv_start|].
  destruct s1 as [w1 P1]. exact (inv_step w jobs Pr faults _ _ St (IH eq_refl _ _ eq_refl)).
Qed.

(** ** Theorems *)
(** Wherever some inserts running together are stopped, failing calls or not: directories and all files but the targets are as they were, and a target is as it was or
    made of bytes of the sources for it at their places, and zeros. *)
Theorem C76_anywhere w jobs faults w' P : prepared w jobs -> reached jobs faults w w' P ->
  cwd w' = cwd w /\ (forall ms, is_dir w' ms <-> is_dir w ms) /\ (forall ms, (forall j, In j jobs -> jtgt j <> ms) -> untouched w w' ms) /\
  (forall f, untouched w w' f \/ forall c i z, is_file w' f c -> nth_error c i = Some z -> from_some_job jobs f i z).
Proof.
  intros Pr R. pose proof (reached_inv _ _ _ _ _ Pr R) as V. split; [apply V|]. split; [apply V|]. split; [apply V|]. intros f. destruct (v_bytes _ _ _ _ _ V f) as [[U _]|Y]; [left; exact U|right; intros c i z H; apply Y; exact H].
Qed.
(** The target of an insert that no other has: untouched, or a beginning of the source; all of it when Run has returned and no call has failed.  Run reports only that
    os.Create was refused, and it is exactly when there is no directory for the target or the target is one. *)
Theorem C76_own_target w jobs faults w' P i j : prepared w jobs -> reached jobs faults w w' P -> sole jobs i j ->
  match P i with
  | Ready => untouched w w' (jtgt j)
  | Copying _ _ _ => creatable w (jtgt j) /\ exists written after, jtext j = written ++ after /\ is_file w' (jtgt j) written
  | Returned ECreate => untouched w w' (jtgt j) /\ ~ creatable w (jtgt j)
  | Returned e => e = ENil /\ creatable w (jtgt j) /\ exists written after, jtext j = written ++ after /\ is_file w' (jtgt j) written /\ (faults = false -> after = [])
  end.
Proof.
  intros Pr R Sl. pose proof (reached_inv _ _ _ _ _ Pr R) as V. pose proof (v_alone _ _ _ _ _ V i j Sl) as A. pose proof (v_copy _ _ _ _ _ V i j (proj1 Sl)) as C. destruct (P i) as [|r k buf|e]; [exact A| |].
  - destruct A as [A1 A2]. split; [exact A1|]. exists (firstn k (jtext j)), (skipn k (jtext j)). split; [symmetry; apply firstn_skipn|exact A2].
  - destruct C as [->| ->]; [|exact A]. destruct A as [A1 [k [A2 A3]]]. split; [reflexivity|]. split; [exact A1|]. exists (firstn k (jtext j)), (skipn k (jtext j)). split; [symmetry; apply firstn_skipn|]. split; [exact A2|].
    intros Hf. specialize (A3 Hf). pose proof (firstn_skipn k (jtext j)) as X. rewrite A3 in X. rewrite <- (app_nil_r (jtext j)) in X at 3. apply app_inv_head in X. exact X.
Qed.
(** One insert alone, stopped anywhere: nothing has changed, or only the target, which holds a beginning of the source. *)
Theorem C76_one_insert w j faults w' P : prepared w [j] -> reached [j] faults w w' P ->
  (cwd w' = cwd w /\ (forall ms, is_dir w' ms <-> is_dir w ms) /\ forall ms, untouched w w' ms) \/ exists written after, jtext j = written ++ after /\ only_change w w' (jtgt j) written /\ (P 0 = Returned ENil -> faults = false -> after = []).
Proof.
  intros Pr R. destruct (C76_anywhere _ _ _ _ _ Pr R) as [A1 [A2 [A3 _]]]. assert (Sl : sole [j] 0 j) by (split; [reflexivity|]; intros [|[|k]] j' H _; [reflexivity|discriminate|discriminate]). pose proof (C76_own_target _ _ _ _ _ _ _ Pr R Sl) as O.
  assert (U : untouched w w' (jtgt j) -> forall ms, untouched w w' ms) by (intros X ms; destruct (list_eq_dec str_dec ms (jtgt j)) as [->|Ne]; [exact X|apply A3; intros j' [<-|[]]; auto]).
  assert (K : forall written, is_file w' (jtgt j) written -> only_change w w' (jtgt j) written).
  { intros written F. split; [exact A1|]. split; [exact F|]. split; [|intros ms _; apply A2]. intros ms c' Ne. apply A3. intros j' [<-|[]]. auto. }
  destruct (P 0) as [|r k buf|e].
  - left. auto.
  - right. destruct O as [_ [written [after [T F]]]]. exists written, after. split; [exact T|]. split; [apply K; exact F|discriminate].
  - destruct e; try (exfalso; destruct O as [O _]; discriminate O; fail).
    + right. destruct O as [_ [_ [written [after [T [F Hf]]]]]]. exists written, after. split; [exact T|]. split; [apply K; exact F|intros _; exact Hf].
    + left. destruct O as [O _]. auto.
Qed.
(** It never gets stuck, and every run ends, whatever the interleaving and the failures: at most 2n+2 steps for a source of n bytes. *)
Theorem C76_not_stuck w jobs faults w' P i j : prepared w jobs -> reached jobs faults w w' P -> nth_error jobs i = Some j ->
  (exists e, P i = Returned e) \/ exists w'' ph, cstep (map call_of jobs) false (w', P) (w'', upd P i ph).
Proof.
  intros Pr R Nj. pose proof (reached_inv _ _ _ _ _ Pr R) as V. assert (Ij : In j jobs) by (eapply nth_error_In; exact Nj). pose proof (source_still w jobs Pr _ _ _ _ V Ij) as Src. pose proof Pr as Pr'. unfold prepared in Pr'. rewrite Forall_forall in Pr'. destruct (Pr' j Ij) as [Ns [Fs [Nt [Ft _]]]].
  assert (Nc : nth_error (map call_of jobs) i = Some (abs_path (jsrc j), abs_path (jtgt j))) by (rewrite nth_error_map, Nj; reflexivity).
  pose proof (v_copy _ _ _ _ _ V i j Nj) as C. destruct (P i) as [|r k buf|e] eqn:Pi; [right|right|left; eauto].
  - destruct (create w' (abs_path (jtgt j)) []) as [w1|] eqn:Cr.
    + exists w1, (Copying 0 0 []). eapply c_step; [exact Nc|]. rewrite Pi. apply i_create. exact Cr.
    + exists w', (Returned ECreate). eapply c_step; [exact Nc|]. rewrite Pi. apply i_refused. exact Cr.
  - destruct C as [[rest [done [T [Ld Er]]]] [old Fc]]. pose proof (open_file _ _ _ Ns Fs Src) as O. destruct buf as [|b buf].
    + cbn [length app] in *. destruct rest as [|z rest].
      * exists w', (Returned ENil). eapply c_step; [exact Nc|]. rewrite Pi. eapply i_eof; [exact O|]. rewrite T, app_nil_r. lia.
      * exists w', (Copying (r + length (z :: rest)) k (z :: rest)). eapply c_step; [exact Nc|]. rewrite Pi. eapply i_read with (after := []); [exact O| |discriminate]. rewrite T, app_nil_r. replace r with (length done) by lia. rewrite skipn_app, skipn_all, Nat.sub_diag. reflexivity.
    + destruct (create w' (abs_path (jtgt j)) (overlay old k (b :: buf))) as [w1|] eqn:Cr.
      * exists w1, (Copying r (k + length (b :: buf)) []). eapply c_step; [exact Nc|]. rewrite Pi. rewrite <- (app_nil_r (b :: buf)) at 1. eapply i_write; [discriminate|apply open_file; eassumption|exact Cr].
      * exfalso. apply (create_possible w' (jtgt j)) in Cr; [|assumption|assumption]. apply Cr. split; [|exact (file_not_dir _ _ _ Fc)]. clear - Fc Nt. unfold is_file, is_dir, node_at in *. destruct (exists_last Nt) as [l [x E]]. rewrite E in *. rewrite removelast_last. clear E Nt.
        revert Fc. generalize (Dir (tree w')) as nd. induction l as [|a l IH]; intros nd Fc; cbn [app below] in *.
        -- destruct nd as [|es]; [discriminate|eauto].
        -- destruct nd as [|es]; [discriminate|]. destruct (child es a) as [y|]; [|discriminate]. apply IH. exact Fc.
Qed.
Definition cost (j : Job) (ph : Phase) : nat :=
  match ph with Ready => 2 * length (jtext j) + 2 | Copying r _ buf => 2 * (length (jtext j) - r) + length buf + 1 | Returned _ => 0 end.
Fixpoint total (jobs : list Job) (P : nat -> Phase) (i : nat) : nat := match jobs with [] => 0 | j :: r => cost j (P i) + total r P (S i) end.
Lemma total_upd ph : forall jobs P i i0 j, nth_error jobs i = Some j -> cost j ph < cost j (P (i0 + i)) -> total jobs (upd P (i0 + i) ph) i0 < total jobs P i0.
Proof.
  assert (Same : forall jobs P i i0, i < i0 -> total jobs (upd P i ph) i0 = total jobs P i0).
  { induction jobs as [|j jobs IH]; intros P i i0 L; [reflexivity|]. cbn [total]. rewrite IH by lia. unfold upd at 1. destruct (Nat.eqb_spec i0 i); [lia|reflexivity]. }
  induction jobs as [|j0 jobs IH]; intros P i i0 j Nj L; [destruct i; discriminate|]. cbn [total]. destruct i as [|i].
  - injection Nj as ->. rewrite Nat.add_0_r in *. rewrite Same by lia. unfold upd. rewrite Nat.eqb_refl. lia.
  - cbn [nth_error] in Nj. replace (i0 + S i) with (S i0 + i) in * by lia. pose proof (IH P i (S i0) j Nj L) as X. unfold upd at 1. destruct (Nat.eqb_spec i0 (S i0 + i)); lia.
Qed.
Theorem C76_ends w jobs faults n s : prepared w jobs -> csteps (map call_of jobs) faults n (w, all_ready) s -> n <= list_sum (map (fun j => 2 * length (jtext j) + 2) jobs).
Proof.
  intros Pr H. assert (G : n + total jobs (snd s) 0 <= total jobs all_ready 0).
  { remember (w, all_ready) as s0 eqn:E. induction H as [s0|n s0 s1 s2 H IH St]; subst; [apply le_n|]. specialize (IH eq_refl). destruct s1 as [w1 P1]. pose proof (reached_inv w jobs faults w1 P1 Pr (ex_intro _ n H)) as V. cbn [snd] in IH. enough (total jobs (snd s2) 0 < total jobs P1 0) by lia. clear IH H.
    inversion St as [w2 P i src tgt w' ph Nc Si|w2 P i src tgt ph Hf Nc Fl]; subst; cbn [snd]; destruct (job_at jobs _ _ _ Nc) as [j [Nj [Ij [-> ->]]]]; (pose proof (v_copy _ _ _ _ _ V i j Nj) as C; apply (total_upd ph jobs P1 i 0 j Nj); cbn [Nat.add]).
    - inversion Si as [w1' Cr E1 E2 E3 E4|w1' w1'' Cr E1 E2 E3 E4|w1' content r k c after O Sk Nn E1 E2 E3 E4|w1' old w1'' r k a b Na O Cr E1 E2 E3 E4|w1' content r k O L E1 E2 E3 E4]; subst; rewrite <- E2 in *; cbn [cost length]; try lia.
      + pose proof (source_still w jobs Pr _ _ _ _ V Ij) as Src. unfold prepared in Pr. rewrite Forall_forall in Pr. destruct (Pr j Ij) as [Ns [Fs _]]. rewrite (open_file _ _ _ Ns Fs Src) in O. injection O as <-. apply (f_equal (@length Z)) in Sk. rewrite skipn_length, app_length in Sk. destruct c; [contradiction|]. cbn [length] in *. lia.
      + rewrite app_length. destruct a; [contradiction|]. cbn [length]. lia.
    - inversion Fl as [r k buf E1 E2]; subst. cbn [cost]. lia. }
  assert (T : forall l i, total l all_ready i = list_sum (map (fun j => 2 * length (jtext j) + 2) l)).
  { induction l as [|j l IH]; intros i; [reflexivity|]. cbn [total map list_sum fold_right]. rewrite IH. reflexivity. }
  rewrite T in G. lia.
Qed.
(** No insert is safe against a crash or a failing call: whatever the target held, it can end up holding any beginning of the source, with Run returning no error. *)
Theorem C76_failure_is_silent w j written after : prepared w [j] -> creatable w (jtgt j) -> jtext j = written ++ after ->
  exists w' P, reached [j] true w w' P /\ P 0 = Returned ENil /\ only_change w w' (jtgt j) written.
Proof.
  intros Pr Cr T. assert (exists w' P, reached [j] true w w' P /\ P 0 = Returned ENil /\ is_file w' (jtgt j) written) as [w' [P [R [H F]]]].
  { pose proof Pr as Pr'. inversion Pr' as [|? ? [Ns [Fs [Nt [Ft [Src D]]]]] _]; subst. inversion D as [|? ? Dj _]; subst. set (src := abs_path (jsrc j)). set (tgt := abs_path (jtgt j)).
    destruct (create w tgt []) as [w1|] eqn:C1; [|exfalso; apply (proj1 (create_possible w (jtgt j) [] Nt Ft) C1); exact Cr]. pose proof (create_effect _ _ _ _ Nt Ft C1) as OC1. destruct OC1 as [_ [F1 [Fo1 D1]]].
    assert (S1 : csteps (map call_of [j]) true 1 (w, all_ready) (w1, upd all_ready 0 (Copying 0 0 []))) by (eapply cs_more; [constructor|eapply c_step; [reflexivity|apply i_create; exact C1]]).
    destruct written as [|z written].
    - exists w1, (upd (upd all_ready 0 (Copying 0 0 [])) 0 (Returned ENil)). split; [exists 2; eapply cs_more; [exact S1|eapply c_fault; [reflexivity|reflexivity|constructor]]|]. split; [reflexivity|exact F1].
    - assert (Cr1 : ~ is_dir w1 (jtgt j)) by (exact (file_not_dir _ _ _ F1)). destruct (create w1 tgt (overlay [] 0 (z :: written))) as [w2|] eqn:C2.
      2:{ exfalso. apply (proj1 (create_possible w1 (jtgt j) _ Nt Ft) C2). split; [|exact Cr1]. apply D1; [apply removelast_neq; exact Nt|apply Cr]. }
      set (P1 := upd all_ready 0 (Copying 0 0 [])). set (P2 := upd P1 0 (Copying (0 + length (z :: written)) 0 (z :: written))). set (P3 := upd P2 0 (Copying (0 + length (z :: written)) (0 + length (z :: written)) [])).
      exists w2, (upd P3 0 (Returned ENil)). split; [|split; [reflexivity|]].
      + exists 4. eapply cs_more; [eapply cs_more; [eapply cs_more; [exact S1|]|]|].
        * eapply (c_step _ _ w1 P1 0 src tgt w1); [reflexivity|]. change (P1 0) with (Copying 0 0 []). eapply i_read with (content := jtext j) (after := after); [|rewrite T; reflexivity|discriminate].
          unfold src. apply open_file; [exact Ns|exact Fs|]. apply Fo1; [exact Dj|exact Src].
        * eapply (c_step _ _ w1 P2 0 src tgt w2); [reflexivity|]. change (P2 0) with (Copying (0 + length (z :: written)) 0 (z :: written)). rewrite <- (app_nil_r (z :: written)) at 2. eapply i_write; [discriminate|unfold tgt; apply open_file; [exact Nt|exact Ft|exact F1]|exact C2].
        * eapply c_fault; [reflexivity|reflexivity|constructor].
      + pose proof (create_effect _ _ _ _ Nt Ft C2) as [_ [F2 _]]. unfold overlay in F2. cbn [firstn length Nat.sub repeat app] in F2. rewrite skipn_nil, app_nil_r in F2. exact F2. }
  exists w', P. split; [exact R|]. split; [exact H|]. destruct (C76_anywhere _ _ _ _ _ Pr R) as [A1 [A2 [A3 _]]]. split; [exact A1|]. split; [exact F|]. split; [|intros ms _; apply A2]. intros ms c' Ne. apply A3. intros j' [<-|[]]. auto.
Qed.
(** Two inserts of the same name at once, all calls succeeding and both returning without error, can leave a text that neither inserted, even with a zero byte. *)
Theorem C76_mixture_refuted : exists w a b w' P c, prepared w [a; b] /\ jtgt a = jtgt b /\ creatable w (jtgt a) /\ reached [a; b] false w w' P /\
  P 0 = Returned ENil /\ P 1 = Returned ENil /\ is_file w' (jtgt a) c /\ c <> jtext a /\ c <> jtext b /\ In 0%Z c /\ ~ In 0%Z (jtext a) /\ ~ In 0%Z (jtext b).
Proof.
  set (w := {| tree := [(lit "a", File (lit "aaaa")); (lit "b", File (lit "b")); (lit "v", Dir [(lit "sites", Dir [])])]; cwd := [] |}).
  set (t := [lit "v"; lit "sites"; lit "x"]). set (ja := {| jsrc := [lit "a"]; jtgt := t; jtext := lit "aaaa" |}). set (jb := {| jsrc := [lit "b"]; jtgt := t; jtext := lit "b" |}).
  set (wx := fun c => {| tree := [(lit "a", File (lit "aaaa")); (lit "b", File (lit "b")); (lit "v", Dir [(lit "sites", Dir [(lit "x", File c)])])]; cwd := [] |}).
  set (c := lit "b" ++ [0%Z] ++ lit "aa"). exists w, ja, jb, (wx c).
  set (P1 := upd all_ready 0 (Copying 0 0 [])). set (P2 := upd P1 0 (Copying 4 0 (lit "aaaa"))). set (P3 := upd P2 0 (Copying 4 2 (lit "aa"))). set (P4 := upd P3 1 (Copying 0 0 [])). set (P5 := upd P4 1 (Copying 1 0 (lit "b"))).
  set (P6 := upd P5 1 (Copying 1 1 [])). set (P7 := upd P6 1 (Returned ENil)). set (P8 := upd P7 0 (Copying 4 4 [])). set (P9 := upd P8 0 (Returned ENil)). exists P9, c.
  assert (N1 : forall s, s = lit "a" \/ s = lit "b" \/ s = lit "v" \/ s = lit "sites" \/ s = lit "x" -> normal s).
  { intros s H. repeat split; intros E; subst; repeat (destruct H as [H|H]; [try discriminate; subst; cbn in E; repeat (destruct E as [E|E]; [discriminate E|]); exact E|]); try discriminate; subst; cbn in E; repeat (destruct E as [E|E]; [discriminate E|]); exact E. }
  split; [|split; [reflexivity|split; [|split; [|split; [reflexivity|split; [reflexivity|]]]]]].
  - unfold prepared. repeat constructor; try discriminate; try reflexivity; try (apply N1; tauto).
  - split; [eexists; reflexivity|intros [es E]; discriminate].
  - exists 9. eapply cs_more with (s' := (wx c, P8)). eapply cs_more with (s' := (wx (lit "b"), P7)). eapply cs_more with (s' := (wx (lit "b"), P6)). eapply cs_more with (s' := (wx [], P5)). eapply cs_more with (s' := (wx [], P4)).
    eapply cs_more with (s' := (wx (lit "aa"), P3)). eapply cs_more with (s' := (wx [], P2)). eapply cs_more with (s' := (wx [], P1)). eapply cs_more with (s' := (w, all_ready)). constructor.
    + eapply c_step with (i := 0); [reflexivity|]. apply i_create. reflexivity.
    + eapply c_step with (i := 0); [reflexivity|]. exact (i_read (abs_path [lit "a"]) (abs_path t) (wx []) (lit "aaaa") 0 0 (lit "aaaa") [] eq_refl eq_refl ltac:(discriminate)).
    + eapply c_step with (i := 0); [reflexivity|]. exact (i_write (abs_path [lit "a"]) (abs_path t) (wx []) [] (wx (lit "aa")) 4 0 (lit "aa") (lit "aa") ltac:(discriminate) eq_refl eq_refl).
    + eapply c_step with (i := 1); [reflexivity|]. exact (i_create (abs_path [lit "b"]) (abs_path t) (wx (lit "aa")) (wx []) eq_refl).
    + eapply c_step with (i := 1); [reflexivity|]. exact (i_read (abs_path [lit "b"]) (abs_path t) (wx []) (lit "b") 0 0 (lit "b") [] eq_refl eq_refl ltac:(discriminate)).
    + eapply c_step with (i := 1); [reflexivity|]. exact (i_write (abs_path [lit "b"]) (abs_path t) (wx []) [] (wx (lit "b")) 1 0 (lit "b") [] ltac:(discriminate) eq_refl eq_refl).
    + eapply c_step with (i := 1); [reflexivity|]. exact (i_eof (abs_path [lit "b"]) (abs_path t) (wx (lit "b")) (lit "b") 1 1 eq_refl (le_n _)).
    + eapply c_step with (i := 0); [reflexivity|]. exact (i_write (abs_path [lit "a"]) (abs_path t) (wx (lit "b")) (lit "b") (wx c) 4 2 (lit "aa") [] ltac:(discriminate) eq_refl eq_refl).
    + eapply c_step with (i := 0); [reflexivity|]. exact (i_eof (abs_path [lit "a"]) (abs_path t) (wx c) (lit "aaaa") 4 4 eq_refl (le_n _)).
  - split; [reflexivity|]. split; [discriminate|]. split; [discriminate|]. split; [right; left; reflexivity|]. split; cbn; intros H; repeat (destruct H as [H|H]; [discriminate H|]); exact H.
Qed.
(** ** Example *)
Example C76_case : exists w j, prepared w [j] /\ creatable w (jtgt j) /\ is_file w (jtgt j) (lit "old") /\ jtext j = lit "new".
Proof.
  exists {| tree := [(lit "a", File (lit "new")); (lit "v", Dir [(lit "x", File (lit "old"))])]; cwd := [] |}, {| jsrc := [lit "a"]; jtgt := [lit "v"; lit "x"]; jtext := lit "new" |}.
  split; [|split; [split; [eexists; reflexivity|intros [es E]; discriminate]|split; reflexivity]].
  unfold prepared, normal. repeat constructor; try discriminate; try reflexivity; cbn; intros H; repeat (destruct H as [H|H]; [discriminate H|]); exact H.
Qed.

Print Assumptions C76_anywhere.
Print Assumptions C76_own_target.
Print Assumptions C76_one_insert.
Print Assumptions C76_not_stuck.
Print Assumptions C76_ends.
Print Assumptions C76_failure_is_silent.
Print Assumptions C76_mixture_refuted.
