(** * Proofs about creating files. *)
From Coq Require Import String.
From Coq Require Import ZArith Arith List Bool Lia.
From Verif Require Import GoStr FsModel RepoSpec FsProofs CmSpec CmdSpec.
Import ListNotations.
Open Scope nat_scope.

Lemma child_put es n x m : child (put_entry es n x) m = if str_dec m n then Some x else child es m.
Proof.
  induction es as [|[a y] es IH]; cbn [put_entry child].
  - destruct (str_dec m n); reflexivity.
  - destruct (str_dec n a) as [<-|Na]; cbn [child]; [destruct (str_dec m n); reflexivity|]. destruct (str_lt n a); cbn [child].
    + destruct (str_dec m n); reflexivity.
    + rewrite IH. destruct (str_dec m a) as [->|]; [|reflexivity]. destruct (str_dec a n); [congruence|reflexivity].
Qed.
Definition filen (nd : Node) (ns : list str) (c : str) : Prop := below nd ns = Found (File c).
Definition dirn (nd : Node) (ns : list str) : Prop := exists es, below nd ns = Found (Dir es).
Lemma create_at_effect : forall ns es content es', create_at es ns content = Some es' ->
  filen (Dir es') ns content /\ (forall ms c, ms <> ns -> (filen (Dir es') ms c <-> filen (Dir es) ms c)) /\ (forall ms, ms <> ns -> (dirn (Dir es') ms <-> dirn (Dir es) ms)).
Proof.
  induction ns as [|n rest IH]; intros es content es' H; [discriminate|]. destruct rest as [|r0 rest].
  - cbn [create_at] in H. assert (E : es' = put_entry es n (File content) /\ match child es n with Some (Dir _) => False | _ => True end) by (destruct (child es n) as [[c|d]|]; [injection H as <-; auto|discriminate|injection H as <-; auto]). destruct E as [-> ND]. clear H.
    unfold filen, dirn. split; [cbn [below]; rewrite child_put; destruct (str_dec n n); [reflexivity|contradiction]|].
    assert (K : forall ms x, ms <> [n] -> below (Dir (put_entry es n (File content))) ms = Found x -> ms <> [] -> below (Dir es) ms = Found x).
    { intros [|m ms] x Nm H Ne; [contradiction|]. cbn [below] in *. rewrite child_put in H. destruct (str_dec m n) as [->|]; [|exact H]. destruct ms; [contradiction|discriminate]. }
    assert (K' : forall ms x, ms <> [n] -> below (Dir es) ms = Found x -> ms <> [] -> below (Dir (put_entry es n (File content))) ms = Found x).
    { intros [|m ms] x Nm H Ne; [contradiction|]. cbn [below] in *. rewrite child_put. destruct (str_dec m n) as [->|]; [|exact H]. destruct ms; [contradiction|]. destruct (child es n) as [[c|d]|]; [discriminate|contradiction|discriminate]. }
    split.
    + intros [|m ms] c Nm; [split; discriminate|]. split; intros H; [apply K|apply K']; auto; discriminate.
    + intros [|m ms] Nm; [split; intros _; eexists; reflexivity|]. split; intros [e H]; exists e; [apply K|apply K']; auto; discriminate.
  - change (create_at es (n :: r0 :: rest) content) with (match child es n with Some (Dir sub) => match create_at sub (r0 :: rest) content with Some sub' => Some (put_entry es n (Dir sub')) | None => None end | _ => None end) in H.
    destruct (child es n) as [[c|sub]|] eqn:EC; try discriminate. destruct (create_at sub (r0 :: rest) content) as [sub'|] eqn:CA; [|discriminate]. injection H as <-. destruct (IH _ _ _ CA) as [H1 [H2 H3]]. unfold filen, dirn in *.
    split; [cbn [below] in *; rewrite child_put; destruct (str_dec n n); [exact H1|contradiction]|]. split.
    + intros [|m ms] c Nm; [split; discriminate|]. cbn [below]. rewrite child_put. destruct (str_dec m n) as [->|]; [|tauto]. rewrite EC. apply H2. congruence.
    + intros [|m ms] Nm; [split; intros _; eexists; reflexivity|]. cbn [below]. rewrite child_put. destruct (str_dec m n) as [->|]; [|tauto]. rewrite EC. apply H3. congruence.
Qed.
Lemma create_at_possible : forall ns es content, (exists es', create_at es ns content = Some es') <-> ns <> [] /\ dirn (Dir es) (removelast ns) /\ ~ dirn (Dir es) ns.
Proof.
  unfold dirn. induction ns as [|n rest IH]; intros es content; [split; [intros [e H]; discriminate|intros [H _]; contradiction]|]. destruct rest as [|r0 rest].
  - cbn [create_at removelast below]. split.
    + intros [e H]. split; [discriminate|]. split; [eexists; reflexivity|]. destruct (child es n) as [[c|d]|]; [|discriminate|]; intros [x X]; discriminate.
    + intros [_ [_ H]]. destruct (child es n) as [[c|d]|]; [eexists; reflexivity|exfalso; apply H; exists d; reflexivity|eexists; reflexivity].
  - change (create_at es (n :: r0 :: rest) content) with (match child es n with Some (Dir sub) => match create_at sub (r0 :: rest) content with Some sub' => Some (put_entry es n (Dir sub')) | None => None end | _ => None end).
    change (removelast (n :: r0 :: rest)) with (n :: removelast (r0 :: rest)). set (rr := removelast (r0 :: rest)) in *. cbn [below].
    destruct (child es n) as [[c|sub]|].
    + split; [intros [e H]; discriminate|]. intros [_ [[e H] N]]. destruct rr as [|q rr']; discriminate.
    + specialize (IH sub content). split.
      * intros [e H]. destruct (create_at sub (r0 :: rest) content) as [s'|] eqn:CA; [|discriminate]. split; [discriminate|]. apply IH. exists s'. reflexivity.
      * intros [_ H]. destruct (proj2 IH ltac:(split; [discriminate|exact H])) as [s' CA]. rewrite CA. eexists. reflexivity.
    + split; [intros [e H]; discriminate|]. intros [_ [[e H] N]]. discriminate.
Qed.
Lemma dirn_prefix : forall a b nd, dirn nd (a ++ b) -> dirn nd a.
Proof.
  induction a as [|n a IH]; intros b nd [es H].
  - cbn [app] in H. destruct nd as [c|es0]; [destruct b; discriminate|exists es0; reflexivity].
  - cbn [app below] in H. destruct nd as [c|es0]; [discriminate|]. destruct (child es0 n) as [x|] eqn:E; [|discriminate]. destruct (IH b x) as [e X]; [exists es; exact H|]. exists e. cbn [below]. rewrite E. exact X.
Qed.
(** ** Paths with normal names *)
Lemma abs_names_normal : forall cs st, Forall normal cs -> abs_names st cs = rev st ++ cs.
Proof.
  induction cs as [|c cs IH]; intros st F; [rewrite app_nil_r; reflexivity|]. inversion F as [|? ? [N1 [N2 [N3 _]]] F']; subst. cbn [abs_names]. rewrite (eqs_false c []), (eqs_false c (lit ".")), (eqs_false c (lit "..")) by assumption. cbn [orb].
  rewrite IH by exact F'. cbn [rev]. rewrite <- app_assoc. reflexivity.
Qed.
Lemma noslashes ns : Forall normal ns -> Forall (fun c => ~ In slash c) ns.
Proof. apply Forall_impl. intros c [_ [_ [_ H]]]. exact H. Qed.
Lemma comps_abs ns : ns <> [] -> Forall normal ns -> comps (abs_path ns) = [] :: ns.
Proof. intros NE F. unfold abs_path. cbn [comps]. rewrite Z.eqb_refl. rewrite comps_joins; [reflexivity|exact NE|apply noslashes; exact F]. Qed.
Lemma names_abs w ns : ns <> [] -> Forall normal ns -> names_of w (abs_path ns) = ns.
Proof. intros NE F. unfold names_of. change (rooted (abs_path ns)) with true. cbn [app]. rewrite comps_abs by assumption. cbn [abs_names]. change (eqs [] []) with true. cbn [orb]. rewrite abs_names_normal by exact F. reflexivity. Qed.
Lemma lookup_abs w ns : ns <> [] -> Forall normal ns -> lookup w (abs_path ns) = node_at w ns.
Proof. intros NE F. unfold lookup. change (abs_path ns) with (slash :: joins ns) at 1. cbv iota. change (rooted (abs_path ns)) with true. cbn [app]. rewrite comps_abs by assumption. cbn [resolve]. change (eqs [] []) with true. cbn [orb]. rewrite resolve_normal by exact F. reflexivity. Qed.
Lemma clean_abs ns : ns <> [] -> Forall normal ns -> clean_root (abs_path ns).
Proof.
  intros NE F. assert (E : Clean (abs_path ns) = abs_path ns).
  { unfold Clean, clean_stack. rewrite comps_abs by assumption. change (rooted (abs_path ns)) with true. cbn [fold_left]. change (clean_step true [] []) with (@nil str). rewrite clean_fold_normal by exact F. rewrite app_nil_r.
    unfold unclean. destruct (rev ns) as [|a l] eqn:R; [apply (f_equal (@rev _)) in R; rewrite rev_involutive in R; contradiction|]. rewrite <- R, rev_involutive. reflexivity. }
  split; [exact E|]. split; [discriminate|]. intros X. injection X as X. assert (Y := comps_joins ns NE (noslashes ns F)). rewrite X in Y. cbn in Y. destruct ns as [|a [|b ns]]; try discriminate. injection Y as <-. inversion F as [|? ? [N _] _]; subst. contradiction.
Qed.
Lemma comps_path a b : b <> [] -> Forall normal b -> comps (a ++ slash :: joins b) = comps a ++ b.
Proof. intros NE F. rewrite comps_app, comps_joins; [reflexivity|exact NE|apply noslashes; exact F]. Qed.
Lemma joins_app a b : a <> [] -> b <> [] -> joins (a ++ b) = joins a ++ slash :: joins b.
Proof.
  intros Na Nb. induction a as [|x a IH]; [contradiction|]. destruct a as [|y a].
  - cbn [app joins]. destruct b; [contradiction|]. reflexivity.
  - change ((x :: y :: a) ++ b) with (x :: (y :: a) ++ b). change (joins (x :: (y :: a) ++ b)) with (x ++ slash :: joins ((y :: a) ++ b)). rewrite IH by discriminate. cbn [joins]. rewrite <- app_assoc. reflexivity.
Qed.
Lemma join_abs rs name : rs <> [] -> Forall normal rs -> Forall normal (comps name) -> Join (abs_path rs) name = abs_path (rs ++ comps name) /\ rs ++ comps name <> [] /\ Forall normal (rs ++ comps name).
Proof.
  intros NE F Fn. assert (Nn : name <> []) by (intros ->; inversion Fn as [|? ? [N _] _]; contradiction). split; [|split; [destruct rs; [contradiction|discriminate]|apply Forall_app; auto]].
  rewrite Join_below; [|apply clean_abs; assumption|exact Nn|exact Fn]. unfold abs_path. rewrite joins_app; [|exact NE|apply comps_nonempty]. rewrite joins_comps. reflexivity.
Qed.
(** ** create *)
Lemma create_effect w ns c w' : ns <> [] -> Forall normal ns -> create w (abs_path ns) c = Some w' -> only_change w w' ns c.
Proof.
  intros NE F H. unfold create in H. change (abs_path ns) with (slash :: joins ns) in H. cbv iota in H. change (slash :: joins ns) with (abs_path ns) in H. rewrite names_abs in H by assumption. destruct (create_at (tree w) ns c) as [t|] eqn:E; [|discriminate]. injection H as <-.
  destruct (create_at_effect _ _ _ _ E) as [H1 [H2 H3]]. split; [reflexivity|]. split; [exact H1|]. split; [intros ms c' N; apply H2; exact N|intros ms N; apply H3; exact N].
Qed.
Lemma create_possible w ns c : ns <> [] -> Forall normal ns -> (create w (abs_path ns) c = None <-> ~ (is_dir w (removelast ns) /\ ~ is_dir w ns)).
Proof.
  intros NE F. unfold create. change (abs_path ns) with (slash :: joins ns). cbv iota. change (slash :: joins ns) with (abs_path ns). rewrite names_abs by assumption. pose proof (create_at_possible ns (tree w) c) as P.
  destruct (create_at (tree w) ns c) as [t|]; split.
  - discriminate.
  - intros N. exfalso. apply N. apply P. exists t. reflexivity.
  - intros _ X. destruct (proj2 P (conj NE X)) as [t T]. discriminate.
  - reflexivity.
Qed.
Lemma file_not_dir w ns c : is_file w ns c -> ~ is_dir w ns.
Proof. intros H [es E]. unfold is_file in H. rewrite H in E. discriminate. Qed.
Lemma removelast_neq {A} (ns : list A) : ns <> [] -> removelast ns <> ns.
Proof. intros NE E. destruct ns as [|a ns]; [contradiction|]. apply (f_equal (@length A)) in E. rewrite (app_removelast_last a NE) in E at 2. rewrite app_length in E. cbn [length] in E. lia. Qed.
