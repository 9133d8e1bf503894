(** * C67: joined paths are cleaned lexically, still lead to the same file, and insert follows them wherever they lead. *)
From Coq Require Import String.
From Coq Require Import ZArith Arith List Bool Lia Relations.
From Verif Require Import GoStr FsModel RepoSpec FsProofs CmdModel CmdSpec FsWrite PathSpec.
Import ListNotations.
Open Scope nat_scope.

Lemma spelled_joins es : spelled es = joins es.
Proof. induction es as [|e [|f es] IH]; reflexivity. Qed.
Lemma elements_comps p es : elements p es <-> comps p = es.
Proof.
  unfold elements. rewrite spelled_joins. split.
  - intros [N [F ->]]. apply comps_joins; assumption.
  - intros <-. split; [apply comps_nonempty|]. split; [apply Forall_forall; intros c; apply comps_no_slash|symmetry; apply joins_comps].
Qed.
Lemma absolute_rooted p : absolute p <-> rooted p = true.
Proof.
  split; [intros [r ->]; reflexivity|]. destruct p as [|c p]; [discriminate|]. cbn [rooted]. intros H. apply Z.eqb_eq in H. subst c. exists p. reflexivity.
Qed.
Lemma here_dec e : {here e} + {~ here e}.
Proof. unfold here. destruct (str_dec e []) as [->|N]; [left; auto|]. destruct (str_dec e (lit ".")) as [->|N2]; [left; auto|right; tauto]. Qed.
Lemma elt_cases e : here e \/ e = up \/ named e.
Proof. destruct (here_dec e); [auto|]. destruct (str_dec e up); [auto|]. right; right; split; assumption. Qed.
Lemma here_test e : here e -> eqs e [] || eqs e (lit ".") = true.
Proof. unfold eqs. intros [->| ->]; reflexivity. Qed.
Lemma named_test e : named e -> eqs e [] || eqs e (lit ".") = false /\ eqs e (lit "..") = false.
Proof. intros [H N]. unfold here in H. rewrite (eqs_false e []), (eqs_false e (lit ".")) by tauto. split; [reflexivity|apply eqs_false; exact N]. Qed.
Lemma step_here rt st e : here e -> clean_step rt st e = st.
Proof. intros H. unfold clean_step. rewrite (here_test e H). reflexivity. Qed.
Lemma step_named rt st n : named n -> clean_step rt st n = n :: st.
Proof. intros H. destruct (named_test n H) as [A B]. unfold clean_step. rewrite A, B. reflexivity. Qed.
Lemma step_up_named rt st n : named n -> clean_step rt (n :: st) up = st.
Proof. intros H. destruct (named_test n H) as [A B]. unfold clean_step. change (eqs up [] || eqs up (lit ".")) with false. change (eqs up (lit "..")) with true. cbv iota. rewrite B. reflexivity. Qed.

Lemma fold_simpler rt (A : Prop) es es' : (A -> rt = true) -> simpler A es es' -> fold_left (clean_step rt) es [] = fold_left (clean_step rt) es' [].
Proof.
  intros HA [a e b H|a n b H|b H].
  - rewrite !fold_left_app. cbn [fold_left]. rewrite step_here by exact H. reflexivity.
  - rewrite !fold_left_app. cbn [fold_left]. rewrite (step_named rt _ n H), step_up_named by exact H. reflexivity.
  - rewrite (HA H). reflexivity.
Qed.
Lemma fold_simplifies rt (A : Prop) es es' : (A -> rt = true) -> clos_refl_trans _ (simpler A) es es' -> fold_left (clean_step rt) es [] = fold_left (clean_step rt) es' [].
Proof. intros HA H. induction H as [? ? H|?|? ? ? _ IH1 _ IH2]; [eapply fold_simpler; eassumption|reflexivity|congruence]. Qed.

(** What simplest lists look like. *)
Lemma simplest_tail (A : Prop) n es : named n -> simplest A (n :: es) -> Forall named es.
Proof.
  revert n. induction es as [|e es IH]; intros n Hn HS; [constructor|].
  assert (He : named e).
  { destruct (elt_cases e) as [H|[->|H]]; [exfalso; exact (HS _ (si_here A [n] e es H))|exfalso; exact (HS _ (si_up A [] n es Hn))|exact H]. }
  constructor; [exact He|]. apply (IH e He). intros es' H. remember (e :: es) as l eqn:El. destruct H as [a x b H|a x b H|b H].
  - exact (HS _ (si_here A (n :: a) x b H)).
  - exact (HS _ (si_up A (n :: a) x b H)).
  - injection El as El _. destruct He as [_ He]. congruence.
Qed.
Lemma simplest_shape (A : Prop) es : simplest A es -> exists k ns, es = repeat up k ++ ns /\ Forall named ns /\ (A -> k = 0).
Proof.
  intros HS.
  assert (G : exists k ns, es = repeat up k ++ ns /\ Forall named ns).
  { assert (G : forall pre l, es = repeat up pre ++ l -> exists k ns, l = repeat up k ++ ns /\ Forall named ns).
    { intros pre l. revert pre. induction l as [|e l IH]; intros pre E; [exists 0, []; split; [reflexivity|constructor]|].
      destruct (elt_cases e) as [H|[->|H]].
      - exfalso. rewrite E in HS. exact (HS _ (si_here A _ e l H)).
      - destruct (IH (S pre)) as [k [ns [E2 F]]].
        + rewrite E. clear. induction pre as [|pre IH]; [reflexivity|]. cbn in *. f_equal. exact IH.
        + exists (S k), ns. rewrite E2. split; [reflexivity|exact F].
      - exists 0, (e :: l). split; [reflexivity|]. constructor; [exact H|]. apply (simplest_tail A e l H). intros es' X.
        rewrite E in HS. remember (e :: l) as l0 eqn:El. destruct X as [a x b Hx|a x b Hx|b Hx].
        + apply (HS (repeat up pre ++ a ++ b)). rewrite app_assoc, (app_assoc (repeat up pre) a b). apply si_here. exact Hx.
        + apply (HS (repeat up pre ++ a ++ b)). rewrite app_assoc, (app_assoc (repeat up pre) a b). apply si_up. exact Hx.
        + injection El as El _. destruct H as [_ H]. congruence. }
    exact (G 0 es eq_refl). }
  destruct G as [k [ns [E F]]]. exists k, ns. split; [exact E|]. split; [exact F|]. intros HA. destruct k; [reflexivity|]. exfalso. rewrite E in HS. exact (HS _ (si_top A _ HA)).
Qed.
Lemma fold_named rt ns : forall st, Forall named ns -> fold_left (clean_step rt) ns st = rev ns ++ st.
Proof.
  induction ns as [|n ns IH]; intros st F; [reflexivity|]. inversion F; subst. cbn [fold_left rev]. rewrite step_named by assumption. rewrite IH by assumption. rewrite <- app_assoc. reflexivity.
Qed.
Lemma fold_ups k : forall j, fold_left (clean_step false) (repeat up k) (repeat up j) = repeat up (k + j).
Proof.
  induction k as [|k IH]; intros j; [reflexivity|]. cbn [repeat fold_left]. replace (clean_step false (repeat up j) up) with (repeat up (S j)) by (destruct j; reflexivity).
  rewrite IH. replace (k + S j) with (S k + j) by lia. reflexivity.
Qed.
Lemma rev_ups k : rev (repeat up k) = repeat up k.
Proof. induction k as [|k IH]; [reflexivity|]. cbn [repeat rev]. rewrite IH. clear. induction k as [|k IH]; [reflexivity|]. cbn. f_equal. exact IH. Qed.
Lemma fold_simplest rt (A : Prop) es : (rt = true -> A) -> simplest A es -> fold_left (clean_step rt) es [] = rev es.
Proof.
  intros HA HS. destruct (simplest_shape A es HS) as [k [ns [-> [F HK]]]]. rewrite fold_left_app, rev_app_distr, rev_ups. rewrite fold_named by exact F. f_equal. destruct rt.
  - rewrite (HK (HA eq_refl)). reflexivity.
  - exact (eq_trans (fold_ups k 0) (f_equal (repeat up) (Nat.add_0_r k))).
Qed.
(** Every list simplifies to what the stack algorithm keeps. *)
Definition stack_ok (rt : bool) (st : list str) : Prop := exists ns k, st = rev ns ++ repeat up k /\ Forall named ns /\ (rt = true -> k = 0).
Lemma fold_reaches rt (A : Prop) es : (rt = true -> A) -> forall st, stack_ok rt st ->
  clos_refl_trans _ (simpler A) (rev st ++ es) (rev (fold_left (clean_step rt) es st)) /\ stack_ok rt (fold_left (clean_step rt) es st).
Proof.
  intros HA. induction es as [|e es IH]; intros st OK; [rewrite app_nil_r; split; [apply rt_refl|exact OK]|].
  cbn [fold_left]. destruct (elt_cases e) as [H|[->|H]].
  - rewrite step_here by exact H. destruct (IH st OK) as [R O]. split; [|exact O]. eapply rt_trans; [apply rt_step, si_here; exact H|exact R].
  - destruct OK as [ns [k [-> [F K]]]]. destruct ns as [|n ns _] using rev_ind.
    + cbn [app rev]. destruct rt.
      * rewrite (K eq_refl). cbn [repeat app rev]. change (clean_step true [] up) with (@nil str). destruct (IH []) as [R O]; [exists [], 0; auto|].
        split; [|exact O]. eapply rt_trans; [apply rt_step, si_top; apply HA; reflexivity|exact R].
      * replace (clean_step false (repeat up k) up) with (repeat up (S k)) by (destruct k; reflexivity).
        destruct (IH (repeat up (S k))) as [R O]; [exists [], (S k); split; [reflexivity|]; split; [constructor|discriminate]|]. split; [|exact O].
        replace (rev (repeat up k) ++ up :: es) with (rev (repeat up (S k)) ++ es); [exact R|]. cbn [repeat rev]. rewrite <- app_assoc. reflexivity.
    + replace (rev (ns ++ [n]) ++ repeat up k) with (n :: rev ns ++ repeat up k) by (rewrite rev_app_distr; reflexivity). cbn [rev]. apply Forall_app in F. destruct F as [F Fn]. inversion Fn as [|? ? Hn _]; subst. rewrite step_up_named by exact Hn.
      destruct (IH (rev ns ++ repeat up k)) as [R O]; [exists ns, k; auto|]. split; [|exact O]. eapply rt_trans; [|exact R]. apply rt_step.
      rewrite <- app_assoc. apply si_up. exact Hn.
  - rewrite step_named by exact H. destruct OK as [ns [k [-> [F K]]]]. destruct (IH (e :: rev ns ++ repeat up k)) as [R O].
    + exists (ns ++ [e]), k. rewrite rev_app_distr. split; [reflexivity|]. split; [apply Forall_app; auto|exact K].
    + split; [|exact O]. replace (rev (rev ns ++ repeat up k) ++ e :: es) with (rev (e :: rev ns ++ repeat up k) ++ es); [exact R|]. cbn [rev]. rewrite <- app_assoc. reflexivity.
Qed.
Lemma stack_simplest rt (A : Prop) st : (A -> rt = true) -> stack_ok rt st -> simplest A (rev st).
Proof.
  intros HA [ns [k [-> [F K]]]] es' X. rewrite rev_app_distr, rev_involutive, rev_ups in X.
  assert (N : forall a e b, repeat up k ++ ns = a ++ e :: b -> e = up \/ named e).
  { intros a e b E. assert (I : In e (repeat up k ++ ns)) by (rewrite E; apply in_or_app; right; left; reflexivity). apply in_app_or in I. destruct I as [I|I]; [left; eapply repeat_spec; exact I|right; rewrite Forall_forall in F; auto]. }
  assert (M : forall a n b, named n -> repeat up k ++ ns = a ++ n :: up :: b -> False).
  { intros a. revert k K X N. induction a as [|x a IH]; intros k K X N n b Hn E.
    - destruct k as [|k]; [|cbn [repeat app] in E; injection E as E _; destruct Hn as [_ Hn]; congruence]. cbn [repeat app] in E. subst ns. inversion F as [|? ? _ F2]; subst. inversion F2 as [|? ? [_ W] _]; subst. congruence.
    - destruct k as [|k].
      + cbn [repeat app] in E. subst ns. rewrite Forall_forall in F. assert (I : In up ((x :: a) ++ n :: up :: b)) by (apply in_or_app; right; right; left; reflexivity). destruct (F _ I) as [_ W]. congruence.
      + cbn [repeat app] in E. injection E as _ E. clear X N IH HA K. revert F a n b Hn E. induction k as [|k IHk]; intros F a n b Hn E.
        * cbn [repeat app] in E. subst ns. rewrite Forall_forall in F. assert (I : In up (a ++ n :: up :: b)) by (apply in_or_app; right; right; left; reflexivity). destruct (F _ I) as [_ W]. congruence.
        * destruct a as [|y a]; cbn [repeat app] in E; [injection E as E _; destruct Hn as [_ Hn]; congruence|]. injection E as _ E. exact (IHk F a n b Hn E). }
  inversion X as [a e b H E1 E2|a n b H E1 E2|b H E1 E2]; subst.
  - symmetry in E1. destruct (N _ _ _ E1) as [->|[W _]]; [destruct H; discriminate|contradiction].
  - symmetry in E1. exact (M _ _ _ H E1).
  - rewrite (K (HA H)) in E1. cbn [repeat app] in E1. subst ns. inversion F as [|? ? [_ W] _]; subst. congruence.
Qed.

Lemma rooted_no p : rooted p = true -> absolute p. Proof. apply absolute_rooted. Qed.
Lemma rooted_yes p : absolute p -> rooted p = true. Proof. apply absolute_rooted. Qed.

(** Every path's elements simplify to a simplest list ... *)
Theorem C67_simplifies p es : elements p es -> exists es', simplifies (absolute p) es es'.
Proof.
  intros E. exists (rev (fold_left (clean_step (rooted p)) es [])).
  destruct (fold_reaches (rooted p) (absolute p) es (rooted_no p) []) as [R O]; [exists [], 0; auto|]. split; [exact R|]. apply (stack_simplest (rooted p)); [apply rooted_yes|exact O].
Qed.
(** ... the only one, and it is what Clean spells out. *)
Theorem C67_clean p es es' : elements p es -> simplifies (absolute p) es es' ->
  (absolute p -> Clean p = lit "/" ++ spelled es') /\ (~ absolute p -> Clean p = match es' with [] => lit "." | _ => spelled es' end).
Proof.
  intros E [R HS]. apply elements_comps in E. subst es.
  assert (K : clean_stack p = rev es').
  { unfold clean_stack. rewrite (fold_simplifies (rooted p) (absolute p) _ _ (rooted_yes p) R). apply (fold_simplest _ (absolute p)); [apply rooted_no|exact HS]. }
  unfold Clean. rewrite K, spelled_joins. split; intros HA.
  - rewrite (rooted_yes p HA). unfold unclean. destruct (rev es') as [|a l] eqn:Q.
    + apply (f_equal (@rev _)) in Q. rewrite rev_involutive in Q. subst es'. reflexivity.
    + rewrite <- Q, rev_involutive. reflexivity.
  - rewrite absolute_rooted in HA. destruct (rooted p); [congruence|]. unfold unclean. destruct (rev es') as [|a l] eqn:Q.
    + apply (f_equal (@rev _)) in Q. rewrite rev_involutive in Q. subst es'. reflexivity.
    + rewrite <- Q, rev_involutive. destruct es'; [discriminate|reflexivity].
Qed.
Theorem C67_unique p es a b : elements p es -> simplifies (absolute p) es a -> simplifies (absolute p) es b -> a = b.
Proof.
  intros E [R1 S1] [R2 S2]. assert (K : rev a = rev b).
  { rewrite <- (fold_simplest (rooted p) (absolute p) a (rooted_no p) S1), <- (fold_simplest (rooted p) (absolute p) b (rooted_no p) S2).
    rewrite <- (fold_simplifies _ _ _ _ (rooted_yes p) R1), <- (fold_simplifies _ _ _ _ (rooted_yes p) R2). reflexivity. }
  apply (f_equal (@rev _)) in K. rewrite !rev_involutive in K. exact K.
Qed.

(** Elements of a cleaned path. *)
Lemma simplifies_noslash (A : Prop) es es' : clos_refl_trans _ (simpler A) es es' -> Forall (fun e => ~ In slash e) es -> Forall (fun e => ~ In slash e) es'.
Proof.
  induction 1 as [x y H|?|? ? ? _ IH1 _ IH2]; auto. intros F. destruct H as [a e b _|a n b _|b _].
  - apply Forall_app in F. destruct F as [F1 F2]. inversion F2; subst. apply Forall_app; auto.
  - apply Forall_app in F. destruct F as [F1 F2]. inversion F2 as [|? ? _ F3]; subst. inversion F3; subst. apply Forall_app; auto.
  - inversion F; assumption.
Qed.
Lemma simplest_nohere (A : Prop) es : simplest A es -> Forall (fun e => ~ here e) es.
Proof.
  intros HS. apply Forall_forall. intros e I H. apply in_split in I. destruct I as [a [b ->]]. exact (HS _ (si_here A a e b H)).
Qed.
Definition dispr (rt : bool) (es : list str) : list str := if rt then [] :: match es with [] => [[]] | _ => es end else match es with [] => [lit "."] | _ => es end.
Lemma clean_comps p es' : simplifies (absolute p) (comps p) es' -> comps (Clean p) = dispr (rooted p) es' /\ rooted (Clean p) = rooted p /\ Clean p <> [].
Proof.
  intros H. pose proof H as [R HS]. assert (E : elements p (comps p)) by (apply elements_comps; reflexivity).
  destruct (C67_clean p _ _ E H) as [C1 C2]. assert (NS := simplifies_noslash _ _ _ R (proj2 (Forall_forall _ _) (comps_no_slash p))). pose proof (simplest_nohere _ _ HS) as NH.
  destruct (rooted p) eqn:Rt.
  - rewrite (C1 (rooted_no p Rt)). rewrite spelled_joins. cbn [lit app]. split; [|split; [reflexivity|discriminate]]. unfold dispr.
    change (comps (lit "/" ++ joins es')) with ([] :: comps (joins es')). destruct es' as [|a l]; [reflexivity|]. rewrite comps_joins; [reflexivity|discriminate|exact NS].
  - assert (NA : ~ absolute p) by (rewrite absolute_rooted; congruence). rewrite (C2 NA). unfold dispr. destruct es' as [|a l]; [repeat split; discriminate|].
    rewrite spelled_joins. split; [apply comps_joins; [discriminate|exact NS]|]. inversion NH as [|? ? H1 _]; subst. inversion NS as [|? ? H2 _]; subst. unfold here in H1.
    destruct a as [|c a]; [tauto|]. assert (Hc : (c =? slash)%Z = false) by (apply Z.eqb_neq; intros ->; apply H2; left; reflexivity). destruct l; cbn [joins app]; split; try discriminate; exact Hc.
Qed.
Lemma simplest_dispr (A : Prop) rt es : simplest A es -> clos_refl_trans _ (simpler A) (dispr rt es) es.
Proof.
  intros HS. unfold dispr. destruct rt, es as [|a l].
  - eapply rt_trans; apply rt_step; [apply (si_here A [] [] [[]]); left; reflexivity|apply (si_here A [] [] []); left; reflexivity].
  - apply rt_step. apply (si_here A [] [] (a :: l)). left; reflexivity.
  - apply rt_step. apply (si_here A [] (lit ".") []). right; reflexivity.
  - apply rt_refl.
Qed.
(** Cleaning twice changes nothing more. *)
Theorem C67_idempotent p : Clean (Clean p) = Clean p.
Proof.
  destruct (C67_simplifies p (comps p)) as [es' H]; [apply elements_comps; reflexivity|]. destruct (clean_comps p es' H) as [C [Rt _]].
  assert (AA : absolute (Clean p) <-> absolute p) by (rewrite !absolute_rooted, Rt; reflexivity).
  assert (E : elements p (comps p)) by (apply elements_comps; reflexivity). assert (E2 : elements (Clean p) (dispr (rooted p) es')) by (apply elements_comps; exact C).
  destruct H as [R HS].
  assert (HS2 : simplest (absolute (Clean p)) es').
  { intros x X. apply (HS x). destruct X; [apply si_here|apply si_up|apply si_top]; tauto. }
  destruct (C67_clean p _ _ E (conj R HS)) as [P1 P2]. destruct (C67_clean (Clean p) _ es' E2 (conj (simplest_dispr _ _ _ HS2) HS2)) as [Q1 Q2].
  destruct (rooted p) eqn:Rp.
  - assert (HA : absolute p) by (apply absolute_rooted; exact Rp). rewrite Q1 by (apply AA; exact HA). symmetry; apply P1; exact HA.
  - assert (HA : ~ absolute p) by (rewrite absolute_rooted; congruence). rewrite Q2 by (rewrite AA; exact HA). symmetry; apply P2; exact HA.
Qed.

(** ** The file a cleaned path leads to *)
Lemma resolve_simpler (A : Prop) es es' anc cur n : (A -> anc = []) -> simpler A es es' -> resolve anc cur es = Found n -> resolve anc cur es' = Found n.
Proof.
  intros HA [a e b H|a x b H|b H] E.
  - rewrite resolve_app in *. destruct (descend anc cur a) as [anc' [cur'| |]]; try discriminate. cbn [resolve] in E. destruct cur' as [|es0]; [discriminate|]. rewrite (here_test e H) in E. exact E.
  - rewrite resolve_app in *. destruct (descend anc cur a) as [anc' [cur'| |]]; try discriminate. cbn [resolve] in E. destruct cur' as [|es0]; [discriminate|].
    destruct (named_test x H) as [T1 T2]. rewrite T1, T2 in E. destruct (child es0 x) as [y|]; [|discriminate]. destruct y as [|es1]; [discriminate|]. exact E.
  - rewrite (HA H) in *. cbn [resolve] in E. destruct cur as [|es0]; [discriminate|]. exact E.
Qed.
Lemma resolve_simplifies (A : Prop) es es' anc cur n : (A -> anc = []) -> clos_refl_trans _ (simpler A) es es' -> resolve anc cur es = Found n -> resolve anc cur es' = Found n.
Proof. intros HA H. induction H as [? ? H|?|? ? ? _ IH1 _ IH2]; [apply (resolve_simpler A); assumption|auto|auto]. Qed.
Lemma resolve_dir anc cur e es n : resolve anc cur (e :: es) = Found n -> exists ents, cur = Dir ents.
Proof. destruct cur as [|ents]; [discriminate|eauto]. Qed.
Lemma resolve_dispr rt anc ents es n : resolve anc (Dir ents) es = Found n -> resolve anc (Dir ents) (dispr rt es) = Found n.
Proof. unfold dispr. destruct rt, es as [|a l]; intros E; exact E. Qed.
(** If the system can follow a path, it reaches the same file or directory through the cleaned path. *)
Theorem C67_same_file w p n : lookup w p = Found n -> lookup w (Clean p) = Found n.
Proof.
  intros L. destruct (C67_simplifies p (comps p)) as [es' H]; [apply elements_comps; reflexivity|]. destruct (clean_comps p es' H) as [C [Rt NE]]. destruct H as [R _].
  unfold lookup in *. destruct p as [|c p]; [discriminate|]. set (q := c :: p) in *. destruct (Clean q) as [|d q'] eqn:Q; [congruence|]. rewrite Rt, C. pose proof (comps_nonempty q) as NC.
  destruct (rooted q) eqn:Rq.
  - cbn [app] in *. apply resolve_dispr. apply (resolve_simplifies (absolute q) (comps q)); auto.
  - rewrite resolve_app in *. destruct (descend [] (Dir (tree w)) (cwd w)) as [anc [cur| |]]; try discriminate.
    assert (D : exists ents, cur = Dir ents) by (destruct (comps q) as [|e es]; [congruence|exact (resolve_dir _ _ _ _ _ L)]). destruct D as [ents ->].
    apply resolve_dispr. apply (resolve_simplifies (absolute q) (comps q)); [intros HA; apply rooted_yes in HA; congruence|exact R|exact L].
Qed.
Theorem C67_join_same_file w a b n : a <> [] -> b <> [] -> lookup w (a ++ lit "/" ++ b) = Found n -> lookup w (Join a b) = Found n.
Proof. intros Ha Hb L. destruct a as [|c a]; [congruence|]. destruct b as [|d b]; [congruence|]. apply C67_same_file. exact L. Qed.
(** The converse fails: a cleaned path can exist where the original does not. *)
Theorem C67_converse_refuted : exists w p n, lookup w (Clean p) = Found n /\ lookup w p = NotExist.
Proof. exists {| tree := [(lit "a", File (lit "x"))]; cwd := [] |}, (lit "/no/../a"), (File (lit "x")). split; reflexivity. Qed.

(** ** Where insert writes *)
Lemma walk_total es : forall d, exists t, walk d es t.
Proof.
  induction es as [|e es IH]; intros d; [exists d; constructor|]. destruct (elt_cases e) as [H|[->|H]].
  - destruct (IH d) as [t T]. exists t. constructor; assumption.
  - destruct d as [|x d _] using rev_ind; [destruct (IH []) as [t T]; exists t; constructor; assumption|]. destruct (IH d) as [t T]. exists t. apply wk_up. exact T.
  - destruct (IH (d ++ [e])) as [t T]. exists t. apply wk_name; assumption.
Qed.
Lemma walk_fold d es t : walk d es t -> Forall named d -> fold_left (clean_step true) es (rev d) = rev t /\ Forall named t.
Proof.
  induction 1 as [d|d e es t H _ IH|d n es t _ IH|es t _ IH|d n es t H _ IH]; intros F.
  - auto.
  - cbn [fold_left]. rewrite step_here by exact H. auto.
  - apply Forall_app in F. destruct F as [F Fn]. inversion Fn; subst. rewrite rev_app_distr. cbn [rev app fold_left]. rewrite step_up_named by assumption. auto.
  - exact (IH F).
  - cbn [fold_left]. rewrite step_named by exact H. replace (n :: rev d) with (rev (d ++ [n])) by (rewrite rev_app_distr; reflexivity). apply IH. apply Forall_app; auto.
Qed.
Lemma normal_named e : normal e <-> named e /\ ~ In slash e.
Proof. unfold normal, named, here, up. tauto. Qed.
Lemma walk_normal d es t : walk d es t -> Forall normal d -> Forall (fun e => ~ In slash e) es -> Forall normal t.
Proof.
  induction 1 as [d|d e es t H _ IH|d n es t _ IH|es t _ IH|d n es t H _ IH]; intros F Fe; auto; inversion Fe; subst; auto.
  - apply IH; [apply Forall_app in F; tauto|assumption].
  - apply IH; [|assumption]. apply Forall_app. split; [exact F|]. constructor; [|constructor]. apply normal_named. auto.
Qed.
Lemma joins_nil_iff ns : Forall normal ns -> joins ns = [] -> ns = [].
Proof. intros F E. destruct ns as [|a [|b ns]]; [reflexivity| |]; exfalso; inversion F as [|? ? [N _] _]; subst; cbn [repeat app] in E; [contradiction|]. destruct a; discriminate. Qed.
Lemma join_walk rs name es t : Forall normal rs -> elements name es -> walk rs es t -> Join (abs_path rs) name = abs_path t /\ Forall normal t.
Proof.
  intros Fr E W. apply elements_comps in E. subst es.
  assert (Fd : Forall named rs) by (eapply Forall_impl; [|exact Fr]; intros e He; apply normal_named in He; tauto).
  destruct (walk_fold _ _ _ W Fd) as [K _]. assert (Ft := walk_normal _ _ _ W Fr (proj2 (Forall_forall _ _) (comps_no_slash name))). split; [|exact Ft].
  assert (P : forall q, fold_left (clean_step true) (comps (abs_path rs)) [] = rev rs -> q = abs_path rs ++ slash :: name \/ (name = [] /\ q = abs_path rs) -> Clean q = abs_path t).
  { intros q Kr Hq. assert (Rq : rooted q = true) by (destruct Hq as [->|[_ ->]]; reflexivity). assert (Kq : clean_stack q = rev t).
    { unfold clean_stack. rewrite Rq. destruct Hq as [->|[-> ->]]; [rewrite comps_app, fold_left_app, Kr; exact K|]. rewrite Kr. rewrite <- K. reflexivity. }
    unfold Clean. rewrite Rq, Kq. unfold unclean. destruct (rev t) as [|a l] eqn:Q.
    - apply (f_equal (@rev _)) in Q. rewrite rev_involutive in Q. subst t. reflexivity.
    - rewrite <- Q, rev_involutive. reflexivity. }
  assert (Kr : fold_left (clean_step true) (comps (abs_path rs)) [] = rev rs).
  { destruct rs as [|r rs]; [reflexivity|]. rewrite comps_abs by (discriminate || assumption). change (fold_left (clean_step true) ([] :: r :: rs) []) with (fold_left (clean_step true) (r :: rs) []). rewrite fold_named by exact Fd. apply app_nil_r. }
  unfold Join. change (abs_path rs) with (slash :: joins rs) at 1. cbv iota. destruct name as [|c name].
  - apply P; auto.
  - apply P; auto.
Qed.
Lemma Insert_target w root target src name : target <> [] -> Forall normal target -> Join root name = abs_path target ->
  (is_dir w (removelast target) /\ ~ is_dir w target ->
     forall ss content, src = abs_path ss -> ss <> [] -> Forall normal ss -> is_file w ss content -> ss <> target ->
     exists w', Insert w root (Some src) name = (w', Done [] [] ENil) /\ only_change w w' target content) /\
  (~ (is_dir w (removelast target) /\ ~ is_dir w target) -> Insert w root (Some src) name = (w, Done [] [] ECreate)).
Proof.
  intros NT FT J. split.
  - intros [Hp Ht] ss content -> Ns Fs Hs Hd. unfold Insert. rewrite J.
    destruct (create w (abs_path target) []) as [w1|] eqn:C1; [|exfalso; apply (create_possible w target []) in C1; [apply C1; auto|assumption|assumption]].
    pose proof (create_effect w target [] w1 NT FT C1) as [E1 [E2 [E3 E4]]].
    assert (O : open_read w1 (abs_path ss) = Some content). { unfold open_read. rewrite lookup_abs by assumption. apply E3 in Hs; [|exact Hd]. unfold is_file in Hs. rewrite Hs. reflexivity. }
    rewrite O. destruct (create w1 (abs_path target) content) as [w2|] eqn:C2.
    + exists w2. split; [reflexivity|]. pose proof (create_effect w1 target content w2 NT FT C2) as [G1 [G2 [G3 G4]]]. split; [congruence|]. split; [exact G2|]. split.
      * intros ms c N. rewrite (G3 ms c N). apply E3. exact N.
      * intros ms N. rewrite (G4 ms N). apply E4. exact N.
    + exfalso. apply (create_possible w1 target content) in C2; [|assumption|assumption]. apply C2. split; [apply E4; [apply removelast_neq; exact NT|exact Hp]|exact (file_not_dir _ _ _ E2)].
  - intros H. unfold Insert. rewrite J. rewrite (proj2 (create_possible w _ [] NT FT) H). reflexivity.
Qed.
(** insert --file F NAME for any NAME: the file written is the one NAME leads to from the root. *)
Theorem C67_insert_writes_there w rs ss name es t content : Forall normal rs -> ss <> [] -> Forall normal ss -> elements name es -> walk rs es t ->
  is_file w ss content -> ss <> t -> t <> [] -> is_dir w (removelast t) -> ~ is_dir w t ->
  exists w', Insert w (abs_path rs) (Some (abs_path ss)) name = (w', Done [] [] ENil) /\ only_change w w' t content.
Proof.
  intros Fr Ns Fs E W Hs Hd Nt Hp Ht. destruct (join_walk rs name es t Fr E W) as [J Ft]. destruct (Insert_target w (abs_path rs) t (abs_path ss) name Nt Ft J) as [K _]. eapply K; eauto.
Qed.
Theorem C67_insert_impossible w rs src name es t : Forall normal rs -> elements name es -> walk rs es t ->
  t = [] \/ ~ is_dir w (removelast t) \/ is_dir w t -> Insert w (abs_path rs) (Some src) name = (w, Done [] [] ECreate).
Proof.
  intros Fr E W H. destruct (join_walk rs name es t Fr E W) as [J Ft]. destruct t as [|x t].
  - unfold Insert. rewrite J. reflexivity.
  - destruct (Insert_target w (abs_path rs) (x :: t) src name) as [_ K]; [discriminate|exact Ft|exact J|]. apply K. intros [H1 H2]. destruct H as [H|[H|H]]; [discriminate|exact (H H1)|exact (H2 H)].
Qed.
(** One target for each name. *)
Theorem C67_target rs name es : Forall normal rs -> elements name es -> exists t, walk rs es t /\ forall t', walk rs es t' -> t' = t.
Proof.
  intros Fr E. destruct (walk_total es rs) as [t W]. exists t. split; [exact W|]. intros t' W'.
  assert (Fd : Forall named rs) by (eapply Forall_impl; [|exact Fr]; intros e He; apply normal_named in He; tauto).
  destruct (walk_fold _ _ _ W Fd) as [K _]. destruct (walk_fold _ _ _ W' Fd) as [K' _]. rewrite K in K'. apply (f_equal (@rev _)) in K'. rewrite !rev_involutive in K'. auto.
Qed.
(** A name that never climbs above the root stays below it. *)
Theorem C67_confined rs es t : stays 0 es -> walk rs es t -> exists more, t = rs ++ more.
Proof.
  intros HS W. assert (G : forall k es, stays k es -> forall d, length d = k -> forall t, walk (rs ++ d) es t -> exists more, t = rs ++ more).
  { clear. induction 1 as [k|k e es H _ IH|k es _ IH|k n es H _ IH]; intros d L t W.
    - inversion W; subst. eauto.
    - inversion W as [|? ? ? ? _ W'|? ? ? ? W' E1 E2|? ? W' E1 E2|? ? ? ? [Hn _] W']; subst.
      + eapply IH; eauto.
      + destruct H; discriminate.
      + destruct H; discriminate.
      + contradiction.
    - destruct d as [|x d _] using rev_ind; [discriminate|]. rewrite app_length in L. cbn in L.
      inversion W as [|? ? ? ? [H|H] W'|d' n' ? ? W' E1 E2|? ? W' E1 E2|? ? ? ? [_ Hn] W']; subst; try discriminate.
      + rewrite app_assoc in E1. apply app_inj_tail in E1. destruct E1 as [-> _]. apply (IH d); [lia|exact W'].
      + symmetry in E1. apply app_eq_nil in E1. destruct E1 as [_ E1]. destruct d; discriminate.
      + congruence.
    - inversion W as [|? ? ? ? Hh W'|? ? ? ? W' E1 E2|? ? W' E1 E2|? ? ? ? Hn W']; subst.
      + destruct H as [H _]. contradiction.
      + destruct H as [_ H]. congruence.
      + destruct H as [_ H]. congruence.
      + rewrite <- app_assoc in W'. apply (IH (d ++ [n])); [rewrite app_length; cbn; lia|exact W']. }
  apply (G 0 es HS []); [reflexivity|]. rewrite app_nil_r. exact W.
Qed.
(** Nothing checks that: a name with ".." makes insert write beside the store. *)
Theorem C67_insert_outside_store_refuted w base d ss n content : Forall normal base -> normal d -> normal n -> n <> d -> ss <> [] -> Forall normal ss ->
  is_file w ss content -> ss <> base ++ [n] -> is_dir w base -> ~ is_dir w (base ++ [n]) ->
  exists w', Insert w (abs_path (base ++ [d])) (Some (abs_path ss)) (lit "../" ++ n) = (w', Done [] [] ENil) /\ only_change w w' (base ++ [n]) content /\
    forall more, base ++ [n] <> (base ++ [d]) ++ more.
Proof.
  intros Fb Hd Hn ND Ns Fs Hs Hne Hp Ht.
  assert (E : elements (lit "../" ++ n) [up; n]).
  { apply elements_comps. change (lit "../" ++ n) with (lit ".." ++ slash :: n). rewrite comps_app, (normal_comps n Hn). reflexivity. }
  assert (W : walk (base ++ [d]) [up; n] (base ++ [n])) by (apply wk_up, wk_name; [apply normal_named in Hn; tauto|constructor]).
  destruct (C67_insert_writes_there w (base ++ [d]) ss (lit "../" ++ n) [up; n] (base ++ [n]) content) as [w' [I O]]; try assumption.
  - apply Forall_app; auto.
  - destruct base; discriminate.
  - rewrite removelast_last. exact Hp.
  - exists w'. split; [exact I|]. split; [exact O|]. intros more X. rewrite <- app_assoc in X. apply app_inv_head in X. cbn in X. injection X as X _. contradiction.
Qed.

(** Non-vacuity. *)
Definition world67 : World := {| tree := [(lit "src", File (lit "pw")); (lit "vault", Dir [(lit "bank", Dir [])])]; cwd := [lit "vault"] |}.
Example C67_clean_examples : Clean (lit "a/./b//../../../c/") = lit "../c" /\ Clean (lit "/../a/..//b") = lit "/b" /\ Clean (lit "a/..") = lit "." /\ Clean (lit "../../x") = lit "../../x".
Proof. repeat split. Qed.
Example C67_simplifies_example : elements (lit "a/../b") [lit "a"; up; lit "b"] /\ simplifies (absolute (lit "a/../b")) [lit "a"; up; lit "b"] [lit "b"].
Proof.
  split; [apply elements_comps; reflexivity|]. split.
  - apply rt_step. apply (si_up _ [] (lit "a") [lit "b"]). split; [intros [H|H]; discriminate|discriminate].
  - apply (stack_simplest false _ [lit "b"]); [intros [r H]; discriminate|]. exists [lit "b"], 0. split; [reflexivity|]. split; [|discriminate]. repeat constructor; [intros [H|H]; discriminate|discriminate].
Qed.
Example C67_same_file_hyp : lookup world67 (lit "../src") = Found (File (lit "pw")) /\ lookup world67 (lit "bank/.././/bank") = Found (Dir []).
Proof. split; reflexivity. Qed.
Example C67_insert_hyps : elements (lit "bank/./x") [lit "bank"; lit "."; lit "x"] /\ walk [lit "vault"] [lit "bank"; lit "."; lit "x"] [lit "vault"; lit "bank"; lit "x"] /\ stays 0 [lit "bank"; lit "."; lit "x"] /\
  is_file world67 [lit "src"] (lit "pw") /\ is_dir world67 (removelast [lit "vault"; lit "bank"; lit "x"]) /\ ~ is_dir world67 [lit "vault"; lit "bank"; lit "x"].
Proof.
  assert (Nb : named (lit "bank")) by (split; [intros [H|H]; discriminate|discriminate]). assert (Nx : named (lit "x")) by (split; [intros [H|H]; discriminate|discriminate]).
  split; [apply elements_comps; reflexivity|]. split; [apply wk_name; [exact Nb|]; apply wk_here; [right; reflexivity|]; apply (wk_name [lit "vault"; lit "bank"]); [exact Nx|constructor]|].
  split; [apply st_name; [exact Nb|]; apply st_here; [right; reflexivity|]; apply st_name; [exact Nx|constructor]|].
  split; [reflexivity|]. split; [eexists; reflexivity|]. intros [es H]. discriminate.
Qed.
Example C67_outside_example : exists w', Insert world67 (lit "/vault") (Some (lit "/src")) (lit "../evil") = (w', Done [] [] ENil) /\ lookup w' (lit "/evil") = Found (File (lit "pw")).
Proof. eexists. split; reflexivity. Qed.
Example C67_impossible_hyp : walk [lit "vault"] [up; up] [] /\ ~ is_dir world67 (removelast [lit "vault"; lit "no"; lit "x"]).
Proof. split; [apply (wk_up []), wk_top, wk_end|]. intros [es H]. discriminate. Qed.

Print Assumptions C67_simplifies.
Print Assumptions C67_clean.
Print Assumptions C67_unique.
Print Assumptions C67_idempotent.
Print Assumptions C67_same_file.
Print Assumptions C67_join_same_file.
Print Assumptions C67_converse_refuted.
Print Assumptions C67_insert_writes_there.
Print Assumptions C67_insert_impossible.
Print Assumptions C67_target.
Print Assumptions C67_confined.
Print Assumptions C67_insert_outside_store_refuted.
