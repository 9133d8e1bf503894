(** * Paths and resolution. *)
From Coq Require Import String.
From Coq Require Import ZArith Arith List Bool Lia.
From Verif Require Import GoStr FsModel RepoSpec.
Import ListNotations.
Open Scope nat_scope.

Lemma comps_nonempty s : comps s <> [].
Proof. induction s as [|c s IH]; cbn [comps]; [discriminate|]. destruct (c =? slash)%Z; [discriminate|]. destruct (comps s); discriminate. Qed.
Lemma comps_app a b : comps (a ++ slash :: b) = comps a ++ comps b.
Proof.
  induction a as [|c a IH]; cbn [app comps]; [reflexivity|]. rewrite IH. destruct (c =? slash)%Z; [reflexivity|].
  pose proof (comps_nonempty a). destruct (comps a); [contradiction|reflexivity].
Qed.
Lemma comps_noslash s : ~ In slash s -> comps s = [s].
Proof.
  induction s as [|c s IH]; intros N; [reflexivity|]. cbn [comps]. destruct (Z.eqb_spec c slash) as [->|]; [exfalso; apply N; left; reflexivity|]. rewrite IH; [reflexivity|]. intros I. apply N. right. exact I.
Qed.
Lemma comps_no_slash s c : In c (comps s) -> ~ In slash c.
Proof.
  revert c. induction s as [|x s IH]; intros c; cbn [comps]; [intros [<-|[]] []|]. destruct (Z.eqb_spec x slash) as [->|N].
  - intros [<-|I]; [intros []|apply IH; exact I].
  - pose proof (comps_nonempty s). destruct (comps s) as [|h r]; [contradiction|]. intros [<-|I]; [intros [E|J]; [congruence|exact (IH h ltac:(left; reflexivity) J)]|apply IH; right; exact I].
Qed.
Lemma joins_comps s : joins (comps s) = s.
Proof.
  induction s as [|c s IH]; [reflexivity|]. cbn [comps]. pose proof (comps_nonempty s) as N. destruct (Z.eqb_spec c slash) as [->|].
  - destruct (comps s) as [|h r]; [contradiction|]. change (slash :: joins (h :: r) = slash :: s). rewrite IH. reflexivity.
  - destruct (comps s) as [|h r]; [contradiction|]. destruct r as [|h2 r]; cbn [joins] in *; rewrite <- IH; reflexivity.
Qed.
Lemma joins_snoc l a : l <> [] -> joins (l ++ [a]) = joins l ++ slash :: a.
Proof.
  induction l as [|b l IH]; intros N; [contradiction|]. destruct l as [|b2 l]; [reflexivity|]. specialize (IH ltac:(discriminate)). cbn [app joins] in *. rewrite IH. rewrite <- app_assoc. reflexivity.
Qed.
Lemma comps_joins l : l <> [] -> Forall (fun c => ~ In slash c) l -> comps (joins l) = l.
Proof.
  induction l as [|a l IH]; intros N F; [contradiction|]. inversion F; subst. destruct l as [|b l]; [apply comps_noslash; assumption|].
  change (joins (a :: b :: l)) with (a ++ slash :: joins (b :: l)). rewrite comps_app, IH by (assumption || discriminate). rewrite comps_noslash by assumption. reflexivity.
Qed.
Lemma rooted_app a b : a <> [] -> rooted (a ++ b) = rooted a.
Proof. destruct a; [contradiction|reflexivity]. Qed.

(** ** Clean *)
Lemma clean_step_normal rt st n : normal n -> clean_step rt st n = n :: st.
Proof.
  intros [N1 [N2 [N3 _]]]. unfold clean_step, eqs. destruct (str_dec n []); [contradiction|]. destruct (str_dec n (lit ".")); [contradiction|]. destruct (str_dec n (lit "..")); [contradiction|]. reflexivity.
Qed.
Lemma clean_fold_normal rt ns : forall st, Forall normal ns -> fold_left (clean_step rt) ns st = rev ns ++ st.
Proof.
  induction ns as [|n ns IH]; intros st F; [reflexivity|]. inversion F; subst. cbn [fold_left rev]. rewrite clean_step_normal by assumption. rewrite IH by assumption. rewrite <- app_assoc. reflexivity.
Qed.
(** A usable root: clean, and neither "." nor "/". *)
Definition clean_root (root : str) : Prop := Clean root = root /\ root <> lit "." /\ root <> lit "/".
Lemma clean_root_stack root : clean_root root -> clean_stack root <> [] /\ root = (if rooted root then [slash] else []) ++ joins (rev (clean_stack root)) /\ root <> [].
Proof.
  intros [C [N1 N2]]. unfold Clean, unclean in C. destruct (clean_stack root) as [|a st] eqn:E.
  - exfalso. destruct (rooted root); [apply N2|apply N1]; symmetry; exact C.
  - split; [discriminate|]. split; [symmetry; exact C|]. intros ->. cbn in E. discriminate.
Qed.
Lemma Clean_below root p ns : clean_root root -> comps p = ns -> Forall normal ns -> Clean (root ++ slash :: p) = root ++ slash :: p.
Proof.
  intros CR Ep F. destruct (clean_root_stack root CR) as [N [E NE]]. unfold Clean. rewrite rooted_app by exact NE.
  unfold clean_stack in *. rewrite rooted_app by exact NE. rewrite comps_app, fold_left_app, Ep, clean_fold_normal by exact F.
  set (st := fold_left (clean_step (rooted root)) (comps root) []) in *.
  assert (K : forall ns, ns <> [] -> Forall normal ns -> joins (rev (rev ns ++ st)) = joins (rev st) ++ slash :: joins ns).
  { intros ns0 N0 _. rewrite rev_app_distr, rev_involutive. assert (Ns : rev st <> []) by (intros X; apply (f_equal (@rev _)) in X; rewrite rev_involutive in X; contradiction).
    revert Ns. generalize (rev st). intros l Nl. induction l as [|a l IH]; [contradiction|]. destruct l as [|b l]; [destruct ns0; [contradiction|reflexivity]|].
    specialize (IH ltac:(discriminate)). cbn [app joins] in *. rewrite IH, <- app_assoc. reflexivity. }
  assert (Nn : ns <> []) by (rewrite <- Ep; apply comps_nonempty).
  unfold unclean. destruct (rev ns ++ st) as [|a l] eqn:R; [apply app_eq_nil in R; destruct R as [_ R]; contradiction|]. rewrite <- R, K by assumption.
  rewrite app_assoc, <- E, <- Ep, joins_comps. reflexivity.
Qed.
Lemma normal_comps n : normal n -> comps n = [n].
Proof. intros [_ [_ [_ N]]]. apply comps_noslash. exact N. Qed.
Lemma Join_below root p : clean_root root -> p <> [] -> Forall normal (comps p) -> Join root p = root ++ slash :: p.
Proof.
  intros CR Np F. destruct (clean_root_stack root CR) as [_ [_ NE]]. unfold Join. destruct root as [|r0 root]; [contradiction|]. destruct p as [|p0 p]; [contradiction|]. apply (Clean_below _ _ (comps (p0 :: p))); auto.
Qed.
Lemma clean_root_below root p : clean_root root -> Forall normal (comps p) -> clean_root (root ++ slash :: p).
Proof.
  intros CR F. split; [apply (Clean_below _ _ (comps p)); auto|]. destruct (clean_root_stack root CR) as [_ [_ NE]]. split.
  - destruct root as [|a root]; [contradiction|]. destruct root; cbn; intros E; injection E; intros; subst; [discriminate|]. destruct root; discriminate.
  - destruct root as [|a root]; [contradiction|]. destruct root; cbn; intros E; injection E; intros; subst; [discriminate|]. destruct root; discriminate.
Qed.
(** ** Dir and Base *)
Lemma dropw_app {A} (f : A -> bool) a x b : Forall (fun y => f y = true) a -> f x = false -> dropw f (a ++ x :: b) = x :: b.
Proof. induction 1 as [|y a Hy F IH]; intros Hx; cbn [app dropw]; [rewrite Hx; reflexivity|]. rewrite Hy. apply IH. exact Hx. Qed.
Lemma dropw_all {A} (f : A -> bool) a : Forall (fun y => f y = true) a -> dropw f a = [].
Proof. induction 1 as [|y a Hy F IH]; cbn [dropw]; [reflexivity|]. rewrite Hy. exact IH. Qed.
Lemma noslash_forall s : ~ In slash s -> Forall (fun y => notslash y = true) s.
Proof. intros N. apply Forall_forall. intros x I. unfold notslash. destruct (Z.eqb_spec x slash); [subst; contradiction|reflexivity]. Qed.
Lemma DirOf_snoc d n : ~ In slash n -> DirOf (d ++ slash :: n) = Clean (d ++ [slash]).
Proof.
  intros N. unfold DirOf. rewrite rev_app_distr. cbn [rev]. rewrite <- app_assoc. cbn [app]. rewrite dropw_app; [|apply Forall_rev; apply noslash_forall; exact N|reflexivity].
  cbn [rev]. rewrite rev_involutive. reflexivity.
Qed.
Lemma Clean_normals ns : ns <> [] -> Forall normal ns -> Clean (joins ns ++ [slash]) = joins ns.
Proof.
  intros N F. assert (Fs : Forall (fun c => ~ In slash c) ns) by (eapply Forall_impl; [|exact F]; intros c [_ [_ [_ H]]]; exact H).
  assert (R : forall t, rooted (joins ns ++ t) = false).
  { intros t. destruct ns as [|n ns]; [contradiction|]. inversion F as [|? ? [Hn [_ [_ Hs]]] _]; subst. destruct n as [|c n]; [contradiction|].
    assert (E : rooted (c :: n) = false) by (cbn; destruct (Z.eqb_spec c slash) as [->|]; [exfalso; apply Hs; left; reflexivity|reflexivity]). destruct ns; exact E. }
  unfold Clean, clean_stack. rewrite R. rewrite comps_app, comps_joins by assumption. rewrite fold_left_app, (clean_fold_normal false ns) by exact F. rewrite app_nil_r.
  change (fold_left (clean_step false) (comps []) (rev ns)) with (rev ns). unfold unclean. destruct (rev ns) as [|a l] eqn:E; [apply (f_equal (@rev _)) in E; rewrite rev_involutive in E; contradiction|].
  rewrite <- E, rev_involutive. reflexivity.
Qed.
Lemma DirOf_rel ns n : Forall normal ns -> normal n -> DirOf (joins (ns ++ [n])) = match ns with [] => lit "." | _ => joins ns end.
Proof.
  intros F Hn. destruct ns as [|a ns].
  - cbn [app joins]. unfold DirOf. destruct Hn as [_ [_ [_ Hs]]]. rewrite (dropw_all notslash (rev n)); [reflexivity|apply Forall_rev; apply noslash_forall; exact Hs].
  - rewrite joins_snoc by discriminate. destruct Hn as [_ [_ [_ Hs]]]. rewrite DirOf_snoc by exact Hs. apply Clean_normals; [discriminate|exact F].
Qed.

(** ** Resolution *)
Fixpoint descend (anc : list Node) (cur : Node) (cs : list str) : list Node * Res :=
  match cs with
  | [] => (anc, Found cur)
  | c :: r =>
      match cur with
      | File _ => (anc, NotDir)
      | Dir es =>
          if eqs c [] || eqs c (lit ".") then descend anc cur r
          else if eqs c (lit "..") then match anc with p :: anc' => descend anc' p r | [] => descend [] cur r end
          else match child es c with None => (anc, NotExist) | Some n => descend (cur :: anc) n r end
      end
  end.
Lemma resolve_descend cs : forall anc cur, resolve anc cur cs = snd (descend anc cur cs).
Proof.
  induction cs as [|c r IH]; intros anc cur; [reflexivity|]. cbn [resolve descend]. destruct cur as [|es]; [reflexivity|]. destruct (eqs c [] || eqs c (lit ".")); [apply IH|].
  destruct (eqs c (lit "..")); [destruct anc; apply IH|]. destruct (child es c); [apply IH|reflexivity].
Qed.
Lemma resolve_app a b : forall anc cur, resolve anc cur (a ++ b) = match descend anc cur a with (anc', Found n) => resolve anc' n b | (_, e) => e end.
Proof.
  induction a as [|c r IH]; intros anc cur; [reflexivity|]. cbn [app resolve descend]. destruct cur as [|es]; [reflexivity|]. destruct (eqs c [] || eqs c (lit ".")); [apply IH|].
  destruct (eqs c (lit "..")); [destruct anc; apply IH|]. destruct (child es c); [apply IH|reflexivity].
Qed.
Lemma eqs_false a b : a <> b -> eqs a b = false.
Proof. unfold eqs. destruct (str_dec a b); congruence. Qed.
Lemma resolve_normal ns : Forall normal ns -> forall anc cur, resolve anc cur ns = below cur ns.
Proof.
  induction 1 as [|n ns [N1 [N2 [N3 _]]] F IH]; intros anc cur; [reflexivity|]. cbn [resolve below]. destruct cur as [|es]; [reflexivity|].
  rewrite (eqs_false n []), (eqs_false n (lit ".")), (eqs_false n (lit "..")) by assumption. cbn [orb]. destruct (child es n); [apply IH|reflexivity].
Qed.
Lemma lookup_below w root p nd : root <> [] -> lookup w root = Found nd -> Forall normal (comps p) -> lookup w (root ++ slash :: p) = below nd (comps p).
Proof.
  intros NE L F. unfold lookup in *. destruct root as [|c root]; [contradiction|]. cbn [app]. change (rooted (c :: root ++ slash :: p)) with (rooted (c :: root)).
  change (c :: root ++ slash :: p) with ((c :: root) ++ slash :: p). rewrite comps_app. rewrite app_assoc. rewrite resolve_app. rewrite resolve_descend in L. destruct (descend _ _ _) as [anc r]. cbn [snd] in L. subst r. apply resolve_normal. exact F.
Qed.
Lemma child_in es n x : wfs es -> (child es n = Some x <-> In (n, x) es).
Proof.
  intros W. induction es as [|[m y] es IH]; [cbn; split; [discriminate|tauto]|]. inversion W as [|? ? ? Hm Wy We Hs]; subst. cbn [child]. destruct (str_dec n m) as [->|N].
  - split; [intros E; injection E as ->; left; reflexivity|]. intros [E|I]; [congruence|]. exfalso. rewrite Forall_forall in Hs. specialize (Hs _ I). cbn [fst] in Hs.
    clear -Hs. induction m as [|c m IH]; cbn in Hs; [discriminate|]. rewrite Z.ltb_irrefl, Z.eqb_refl in Hs. cbn in Hs. exact (IH Hs).
  - rewrite (IH We). split; [intros I; right; exact I|]. intros [E|I]; [congruence|exact I].
Qed.
Lemma wfs_in es n x : wfs es -> In (n, x) es -> normal n /\ wf x.
Proof. intros W. induction es as [|[m y] es IH]; [intros []|]. inversion W; subst. intros [E|I]; [injection E as -> ->; auto|apply IH; assumption]. Qed.
