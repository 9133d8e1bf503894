(** * Proofs about Scan on a living file system. *)
From Coq Require Import String.
From Coq Require Import ZArith Arith List Bool Lia Sorting.
From Verif Require Import GoStr FsModel CmModel RepoModel RepoSpec FsProofs RepoScan LiveModel.
Import ListNotations.
Open Scope nat_scope.

Scheme walks_mind := Minimality for walks Sort Prop with wentries_mind := Minimality for wentries Sort Prop.
Combined Scheme walks_both from walks_mind, wentries_mind.

Lemma takew_app (a b : str) : ~ In slash a -> takew notslash (a ++ slash :: b) = a.
Proof.
  induction a as [|x a IH]; intros N; [reflexivity|]. cbn [app takew]. unfold notslash at 1. destruct (Z.eqb_spec x slash) as [->|]; [exfalso; apply N; left; reflexivity|]. cbn [negb]. rewrite IH; [reflexivity|]. intros I. apply N. right. exact I.
Qed.
Lemma Base_below d nm : normal nm -> Base (d ++ slash :: nm) = nm.
Proof.
  intros [N1 [_ [_ N4]]]. unfold Base. rewrite rev_app_distr. cbn [rev]. rewrite <- app_assoc. cbn [app].
  assert (N5 : ~ In slash (rev nm)) by (rewrite <- in_rev; exact N4). destruct (rev nm) as [|x l] eqn:E; [exfalso; apply N1; rewrite <- (rev_involutive nm), E; reflexivity|].
  cbn [app dropw]. unfold notslash at 1. destruct (Z.eqb_spec x slash) as [->|]; [exfalso; apply N5; left; reflexivity|]. cbn [negb].
  rewrite app_comm_cons. rewrite takew_app by exact N5. rewrite <- E. apply rev_involutive.
Qed.
Lemma Base_path root ns nm : normal nm -> Base (path_of root (ns ++ [nm])) = nm.
Proof.
  intros N. destruct ns as [|a ns]; [apply Base_below; exact N|]. unfold path_of. cbn [app]. rewrite app_comm_cons, joins_snoc by discriminate. rewrite app_comm_cons, app_assoc. apply Base_below. exact N.
Qed.
Lemma visit_path root ns nm fs : clean_root root -> Forall normal ns -> normal nm ->
  visit_file (length root + 1) (path_of root (ns ++ [nm])) nm fs = Some (appends fs (found_file (ns ++ [nm]) nm)).
Proof.
  intros CR F N. apply (walk_found root CR (File [])); [constructor|apply Forall_app; auto|]. intros E. destruct ns; discriminate.
Qed.
Lemma found_three ns nm : Forall normal ns -> normal nm -> 2 <= length ns -> found_file (ns ++ [nm]) nm = [].
Proof. intros F N L. exact (found_deep (File []) (wf_file _) ns nm F N L). Qed.

Section Live.
  Variables (W : nat -> Snap) (root : str).
  Hypothesis CR : clean_root root.
  (** Directories hold distinct, normal names, which Walk sorts. *)
  Hypothesis Sane : forall t p names, readdir (W t) p = Some names -> sorted names /\ Forall normal names.
  Let n := length root + 1.

  Lemma times : (forall t path d fs r t', walks W n t path d fs r t' -> t <= t') /\ (forall t path names fs r t', wentries W n t path names fs r t' -> t <= t').
  Proof. apply walks_both; intros; lia. Qed.

  (** Below the root nothing panics, and the process dies only of a refused call. *)
  Definition refused (t t' : nat) (ns : list str) : Prop :=
    exists u ks, t <= u <= t' /\ (lstat (W u) (path_of root (ns ++ ks)) = None \/ readdir (W u) (path_of root (ns ++ ks)) = None).
  Lemma outcomes :
    (forall t path d fs r t', walks W n t path d fs r t' -> forall ns, path = path_of root ns -> Forall normal ns -> (ns = [] -> d = true) ->
       r <> WPanic /\ (r = WFatal -> refused t t' ns)) /\
    (forall t path names fs r t', wentries W n t path names fs r t' -> forall ns, path = path_of root ns -> Forall normal ns -> Forall normal names ->
       r <> WPanic /\ (r = WFatal -> refused t t' ns)).
  Proof.
    apply walks_both.
    - intros t path fs fs' V ns E F T. split; discriminate.
    - intros t path fs V ns -> F T. exfalso. destruct ns as [|a ns]; [specialize (T eq_refl); discriminate|]. destruct (exists_last (l := a :: ns)) as [l [x E]]; [discriminate|]. rewrite E in *. apply Forall_app in F. destruct F as [F1 F2]. inversion F2; subst.
      rewrite Base_path in V by assumption. unfold n in V. rewrite visit_path in V by assumption. discriminate.
    - intros t u path fs L R ns -> F T. split; [discriminate|]. intros _. exists u, []. rewrite app_nil_r. split; [lia|auto].
    - intros t u path fs names L R G ns E F T. split; discriminate.
    - intros t u v path fs names r L R G En IH ns -> F T. destruct (Sane _ _ _ R) as [_ Fn]. destruct (IH ns eq_refl F Fn) as [H1 H2]. split; [exact H1|]. intros Er. destruct (H2 Er) as [u' [ks [H3 H4]]]. exists u', ks. split; [lia|exact H4].
    - intros. split; discriminate.
    - intros t u path nm names fs L N ns -> F Fn. inversion Fn; subst. rewrite path_join in N by assumption. split; [discriminate|]. intros _. exists u, [nm]. split; [lia|auto].
    - intros t u v v' path nm names fs d fs' r L Ls Wk IHw En IHe ns -> F Fn. inversion Fn as [|? ? Nn Fn']; subst. apply (proj1 times) in Wk. destruct (IHe ns eq_refl F Fn') as [H1 H2]. split; [exact H1|].
      intros Er. destruct (H2 Er) as [u' [ks [H3 H4]]]. exists u', ks. split; [lia|exact H4].
    - intros t u v path nm names fs d r L Ls Wk IHw Hr ns -> F Fn. inversion Fn as [|? ? Nn Fn']; subst. rewrite path_join in * by assumption.
      destruct (IHw (ns ++ [nm]) eq_refl) as [H1 H2]; [apply Forall_app; auto|intros E; destruct ns; discriminate|]. split; [exact H1|]. intros Er. destruct (H2 Er) as [u' [ks [H3 H4]]]. exists u', (nm :: ks).
      rewrite <- app_assoc in H4. split; [lia|exact H4].
  Qed.

  (** Three or more levels below the root nothing is added. *)
  Lemma deep :
    (forall t path d fs r t', walks W n t path d fs r t' -> forall ns nm fs', path = path_of root (ns ++ [nm]) -> Forall normal ns -> normal nm -> 2 <= length ns -> r = WOk fs' -> fs' = fs) /\
    (forall t path names fs r t', wentries W n t path names fs r t' -> forall ns fs', path = path_of root ns -> Forall normal ns -> Forall normal names -> 2 <= length ns -> r = WOk fs' -> fs' = fs).
  Proof.
    apply walks_both.
    - intros t path fs fs' V ns nm fs1 -> F N L E. injection E as <-. rewrite Base_path in V by exact N. unfold n in V. rewrite visit_path in V by assumption. injection V as <-. rewrite found_three by assumption. reflexivity.
    - intros. discriminate.
    - intros. discriminate.
    - intros. congruence.
    - intros t u v path fs names r L R G En IH ns nm fs' -> F N Ln E. destruct (Sane _ _ _ R) as [_ Fn]. apply (IH (ns ++ [nm])); [reflexivity|apply Forall_app; auto|exact Fn|rewrite app_length; lia|exact E].
    - intros. congruence.
    - intros. discriminate.
    - intros t u v v' path nm names fs d fs' r L Ls Wk IHw En IHe ns fs1 -> F Fn Ln E. inversion Fn as [|? ? Nn Fn']; subst. rewrite (IHe ns fs1 eq_refl F Fn' Ln eq_refl). apply (IHw ns nm); [apply path_join; assumption|exact F|exact Nn|exact Ln|reflexivity].
    - intros t u v path nm names fs d r L Ls Wk IHw [->| ->] ns fs1 -> F Fn Ln E; discriminate.
  Qed.

  (** The names of a category that are taken. *)
  Inductive picks (lo hi : nat) (c : str) : list str -> list str -> Prop :=
    | pk_nil : picks lo hi c [] []
    | pk_file nm u names ks : lo <= u <= hi -> lstat (W u) (path_of root [c; nm]) = Some false -> nm <> lit ".DS_Store" -> picks lo hi c names ks -> picks lo hi c (nm :: names) (nm :: ks)
    | pk_skip nm u names ks : lo <= u <= hi -> lstat (W u) (path_of root [c; nm]) = Some true \/ nm = lit ".DS_Store" -> picks lo hi c names ks -> picks lo hi c (nm :: names) ks.
  Lemma picks_wider lo hi lo' hi' c names ks : lo' <= lo -> hi <= hi' -> picks lo hi c names ks -> picks lo' hi' c names ks.
  Proof. intros L1 L2. induction 1; [constructor|eapply pk_file|eapply pk_skip]; try eassumption; lia. Qed.
  Lemma included_true c : In c categories <-> included c = true.
  Proof. symmetry. apply included_in. Qed.
  Lemma category c names : forall t fs fs' t', normal c -> Forall normal names -> wentries W n t (path_of root [c]) names fs (WOk fs') t' ->
    exists ks, picks t t' c names ks /\ fs' = appends fs (if included c then map (fun k => (c, rel c k)) ks else []).
  Proof.
    induction names as [|nm names IH]; intros t fs fs' t' Nc Fn En; inversion En as [| |? u v ? ? ? ? ? d f1 ? L Ls Wk En'|? u v ? ? ? ? d r L Ls Wk Hr]; subst.
    - exists []. split; [constructor|]. destruct (included c); reflexivity.
    - inversion Fn as [|? ? Nn Fn']; subst. rewrite (path_join root [c] nm) in * by (auto; constructor; auto). cbn [app] in *. destruct (IH _ _ _ _ Nc Fn' En') as [ks [P ->]].
      pose proof (proj1 times _ _ _ _ _ _ Wk). pose proof (proj2 times _ _ _ _ _ _ En'). assert (P' : picks t t' c names ks) by (eapply picks_wider; [| |exact P]; lia).
      assert (Sk : d = true \/ nm = lit ".DS_Store" -> picks t t' c (nm :: names) ks) by (intros [->|E]; (eapply pk_skip with (u := u); [lia| |exact P']; auto)).
      assert (Sf : d = false -> nm <> lit ".DS_Store" -> picks t t' c (nm :: names) (nm :: ks)) by (intros -> E; eapply pk_file with (u := u); [lia|exact Ls|exact E|exact P']).
      destruct d.
      + inversion Wk as [| | |? ? ? ? ? ? R G|? u' ? ? ? names' ? L' R G En2]; subst.
        * exists ks. split; [apply Sk; auto|reflexivity].
        * destruct (Sane _ _ _ R) as [_ Fn2]. rewrite (proj2 deep _ _ _ _ _ _ En2 [c; nm] f1); [|reflexivity|constructor; auto|exact Fn2|cbn; lia|reflexivity].
          exists ks. split; [apply Sk; auto|reflexivity].
      + inversion Wk as [? ? ? ? V| | | |]; subst. pose proof (Base_path root [c] nm Nn) as B. cbn [app] in B. rewrite B in V. pose proof (visit_path root [c] nm fs CR ltac:(constructor; auto) Nn) as V2. cbn [app] in V2. fold n in V2. rewrite V2 in V. injection V as <-.
        unfold found_file. pose proof (DirOf_rel [c] nm ltac:(constructor; [assumption|constructor]) Nn) as DE. cbn [app] in DE. rewrite DE. cbn [joins].
        destruct (eqs nm (lit ".DS_Store")) eqn:D.
        * apply eqs_iff in D. exists ks. split; [apply Sk; auto|reflexivity].
        * exists (nm :: ks). split; [apply Sf; [reflexivity|intros ->; rewrite eqs_refl in D; discriminate]|]. destruct (included c); reflexivity.
    - destruct Hr; discriminate.
  Qed.

  (** The categories. *)
  Inductive groups (lo hi : nat) : list str -> list (str * list str) -> Prop :=
    | gr_nil : groups lo hi [] []
    | gr_cat c u v names' ks names gs : lo <= u <= hi -> lo <= v <= hi -> In c categories -> lstat (W u) (path_of root [c]) = Some true ->
        readdir (W v) (path_of root [c]) = Some names' -> picks lo hi c names' ks -> groups lo hi names gs -> groups lo hi (c :: names) ((c, ks) :: gs)
    | gr_skip c u names gs : lo <= u <= hi -> lstat (W u) (path_of root [c]) = Some false \/ ~ In c categories -> groups lo hi names gs -> groups lo hi (c :: names) gs.
  Lemma groups_wider lo hi lo' hi' names gs : lo' <= lo -> hi <= hi' -> groups lo hi names gs -> groups lo' hi' names gs.
  Proof.
    intros L1 L2. induction 1; [constructor|eapply gr_cat; try eassumption; try lia|eapply gr_skip; try eassumption; lia]. eapply picks_wider; [| |eassumption]; lia.
  Qed.
  Definition tree_of (gs : list (str * list str)) : list (str * Node) := map (fun g => (fst g, Dir (map (fun k => (k, File [])) (snd g)))) gs.
  Lemma filenames_all ks : Forall (fun k => k <> lit ".DS_Store") ks -> filenames (map (fun k => (k, File [])) ks) = ks.
  Proof. induction 1 as [|k ks H F IH]; [reflexivity|]. unfold filenames in *. cbn [map flat_map snd fst]. rewrite eqs_false by exact H. rewrite IH. reflexivity. Qed.
  Lemma picks_ds lo hi c names ks : picks lo hi c names ks -> Forall (fun k => k <> lit ".DS_Store") ks.
  Proof. induction 1; auto. Qed.
  Lemma top names : forall t fs fs' t', Forall normal names -> wentries W n t root names fs (WOk fs') t' ->
    exists gs, groups t t' names gs /\ fs' = appends fs (store_list (tree_of gs)).
  Proof.
    induction names as [|c names IH]; intros t fs fs' t' Fn En; inversion En as [| |? u v ? ? ? ? ? d f1 ? L Ls Wk En'|? u v ? ? ? ? d r L Ls Wk Hr]; subst.
    - exists []. split; [constructor|reflexivity].
    - inversion Fn as [|? ? Nc Fn']; subst. pose proof (path_join root [] c CR ltac:(constructor) Nc) as PJ. cbn [app path_of] in PJ. rewrite PJ in *. clear PJ. destruct (IH _ _ _ _ Fn' En') as [gs [P ->]]. change (root ++ slash :: joins [c]) with (path_of root [c]) in *.
      pose proof (proj1 times _ _ _ _ _ _ Wk). pose proof (proj2 times _ _ _ _ _ _ En'). assert (P' : groups t t' names gs) by (eapply groups_wider; [| |exact P]; lia).
      assert (Sk : d = false \/ ~ In c categories -> groups t t' (c :: names) gs) by (intros [->|E]; (eapply gr_skip with (u := u); [lia| |exact P']; auto)).
      assert (Sc : d = true -> exists u0, t <= u0 <= t' /\ lstat (W u0) (path_of root [c]) = Some true) by (intros ->; exists u; split; [lia|exact Ls]).
      destruct d.
      + inversion Wk as [| | |? u' ? ? ? ? R G|? u' ? ? ? names' ? L' R G En2]; subst.
        * exists gs. split; [apply Sk; right|reflexivity]. pose proof (Base_path root [] c Nc) as B. cbn [app] in B. intros I. apply included_true, included_normal in I. destruct I as [_ I]. congruence.
        * destruct (Sane _ _ _ R) as [_ Fn2]. destruct (category c names' _ _ _ _ Nc Fn2 En2) as [ks [Pk ->]]. pose proof (proj2 times _ _ _ _ _ _ En2). destruct (included c) eqn:I.
          -- destruct (Sc eq_refl) as [u0 [Hu0 Ls0]]. exists ((c, ks) :: gs). split; [eapply gr_cat with (u := u0) (v := u'); [lia|lia|apply included_true; exact I|exact Ls0|exact R| |exact P']; eapply picks_wider; [| |exact Pk]; lia|].
             unfold tree_of, store_list. cbn [map flat_map fst snd]. rewrite I, filenames_all by (eapply picks_ds; exact Pk). unfold appends. rewrite fold_left_app. reflexivity.
          -- exists gs. split; [apply Sk; right|reflexivity]. rewrite included_true, I. discriminate.
      + inversion Wk as [? ? ? ? V| | | |]; subst. pose proof (Base_path root [] c Nc) as B. cbn [app] in B. rewrite B in V. pose proof (visit_path root [] c fs CR ltac:(constructor) Nc) as V2. cbn [app] in V2. fold n in V2. rewrite V2 in V. injection V as <-.
        exists gs. split; [apply Sk; auto|]. unfold found_file. pose proof (DirOf_rel [] c ltac:(constructor) Nc) as DE. cbn [app] in DE. rewrite DE, included_dot. destruct (eqs c _); reflexivity.
    - destruct Hr; discriminate.
  Qed.

  (** The listed tree is well formed. *)
  Lemma picks_sub lo hi c names ks : picks lo hi c names ks -> (forall P : str -> Prop, Forall P names -> Forall P ks).
  Proof. induction 1; intros P F; [constructor|inversion F; subst; constructor; auto|inversion F; subst; auto]. Qed.
  Lemma picks_sorted lo hi c names ks : picks lo hi c names ks -> sorted names -> sorted ks.
  Proof.
    induction 1 as [|nm u names ks Hu L D P IH|nm u names ks Hu L P IH]; intros So; [constructor| |]; inversion So as [|? ? So' F]; subst; [|auto]. constructor; [apply IH; exact So'|]. exact (picks_sub _ _ _ _ _ P _ F).
  Qed.
  Lemma groups_sub lo hi names gs : groups lo hi names gs -> (forall P : str -> Prop, Forall P names -> Forall (fun g => P (fst g)) gs).
  Proof. induction 1; intros P F; [constructor|inversion F; subst; constructor; [assumption|apply IHgroups; assumption]|inversion F; subst; apply IHgroups; assumption]. Qed.
  Lemma files_wfs ks : sorted ks -> Forall normal ks -> wfs (map (fun k => (k, File [])) ks).
  Proof.
    induction ks as [|k ks IH]; intros So F; [constructor|]. inversion So as [|? ? So' Fk]; subst. inversion F; subst. cbn [map]. constructor; [assumption|constructor|apply IH; assumption|].
    apply Forall_forall. intros e I. apply in_map_iff in I. destruct I as [x [<- I]]. rewrite Forall_forall in Fk. exact (Fk _ I).
  Qed.
  Lemma tree_wfs lo hi names gs : groups lo hi names gs -> sorted names -> Forall normal names -> wfs (tree_of gs).
  Proof.
    induction 1 as [|c u v names' ks names gs Hu Hv Ic L R P G IH|c u names gs Hu L G IH]; intros So F; [constructor| |]; inversion So as [|? ? So' Fc]; subst; inversion F; subst; [|auto].
    destruct (Sane _ _ _ R) as [So2 F2]. unfold tree_of in *. cbn [map fst snd]. constructor; [assumption|constructor; apply files_wfs; [eapply picks_sorted; eassumption|eapply picks_sub; eassumption]|apply IH; assumption|].
    apply Forall_forall. intros e I. apply in_map_iff in I. destruct I as [g [<- I]]. pose proof (groups_sub _ _ _ _ G _ Fc) as X. rewrite Forall_forall in X. exact (X _ I).
  Qed.
End Live.
