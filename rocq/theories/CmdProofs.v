(** * Lemmas about the commands. *)
From Coq Require Import String.
From Coq Require Import ZArith NArith Arith List Bool Lia Permutation Sorting.
From Verif Require Import GoStr FsModel CmModel CmSpec CmProofs CmIndex CmProps RepoModel RepoSpec FsProofs RepoLines RepoScan RepoProps TermModel CmdModel CmdSpec.
Import ListNotations.
Open Scope nat_scope.

Lemma in_order_perm fs order : in_order fs order -> Permutation order (concat (map snd fs)).
Proof.
  intros [fs' [P ->]]. induction P as [|x l l' P IH|x y l|l l' l'' P1 IH1 P2 IH2]; cbn [map concat].
  - constructor.
  - apply Permutation_app_head. exact IH.
  - rewrite !app_assoc. apply Permutation_app_tail. apply Permutation_app_comm.
  - eapply Permutation_trans; eassumption.
Qed.
Lemma in_order_exists fs : in_order fs (concat (map snd fs)).
Proof. exists fs. auto. Qed.
Lemma in_files {A B} (fs : list (A * list B)) f : In f (concat (map snd fs)) <-> exists c l, In (c, l) fs /\ In f l.
Proof.
  rewrite in_concat. split.
  - intros [l [I1 I2]]. apply in_map_iff in I1. destruct I1 as [[c l'] [<- I1]]. exists c, l'. auto.
  - intros [c [l [I1 I2]]]. exists l. split; [|exact I2]. apply in_map_iff. exists (c, l). auto.
Qed.
(** The scan of a store. *)
Lemma scan_store w root es : store_at w root es -> exists fs, Scan w root = Scanned fs
  /\ (forall order, in_order fs order -> all_entries es order)
  /\ all_categories es (map fst fs)
  /\ (forall cat l, In (cat, l) fs -> StronglySorted (fun a b => str_lt a b = true) l /\ forall f, In f l <-> exists name, entry es cat name /\ f = rel cat name).
Proof.
  intros [C1 [C2 [C3 [B [L W]]]]]. destruct (C31_scan_lists_exactly_the_entries w root es C1 C2 C3 B L W) as [fs [SC [N1 [N2 [H1 H2]]]]]. exists fs. split; [exact SC|].
  assert (U : forall cat l, In (cat, l) fs -> forall f, In f l <-> exists name, entry es cat name /\ f = rel cat name).
  { intros cat l I f. rewrite <- H2. split; [intros J; exists l; auto|]. intros [l' [I' J]].
    assert (l' = l); [|subst; exact J]. apply (get_in str_dec) in I; [|exact N1]. apply (get_in str_dec) in I'; [|exact N1]. congruence. }
  split; [|split].
  - intros order O. apply in_order_perm in O. split; [apply (Permutation_NoDup (Permutation_sym O)); exact N2|]. intros f. split.
    + intros I. apply (Permutation_in _ O) in I. apply in_files in I. destruct I as [c [l [I1 I2]]]. destruct (proj1 (H2 c f) ltac:(exists l; auto)) as [nm [E F]]. exists c, nm. auto.
    + intros [c [nm [E F]]]. apply (Permutation_in _ (Permutation_sym O)). apply in_files. destruct (proj2 (H2 c f) ltac:(exists nm; auto)) as [l [I1 I2]]. exists c, l. auto.
  - split; [exact N1|]. intros c. split.
    + intros I. apply in_map_iff in I. destruct I as [[c' l] [<- I]]. cbn [fst]. destruct l as [|f l]; [exfalso; destruct (H1 _ _ I) as [X _]; contradiction|].
      destruct (proj1 (U _ _ I f) ltac:(left; reflexivity)) as [nm [E _]]. exists nm. exact E.
    + intros [nm E]. destruct (proj2 (H2 c (rel c nm)) ltac:(exists nm; auto)) as [l [I _]]. apply in_map_iff. exists (c, l). auto.
  - intros cat l I. split; [apply (H1 _ _ I)|apply U; exact I].
Qed.

(** Scores do not depend on the order of the list. *)
Lemma filter_perm {A} (p : A -> bool) l l' : Permutation l l' -> Permutation (filter p l) (filter p l').
Proof.
  induction 1 as [|x l l' P IH|x y l|l l' l'' P1 IH1 P2 IH2]; cbn [filter]; try constructor.
  - destruct (p x); [constructor; exact IH|exact IH].
  - destruct (p x), (p y); try constructor; apply Permutation_refl.
  - eapply Permutation_trans; eassumption.
Qed.
Lemma is_score_perm lower sizes ws ws' q k v : Permutation ws ws' -> is_score lower sizes ws q k v -> is_score lower sizes ws' q k v.
Proof.
  intros P [gs [has [H1 [H2 ->]]]]. exists gs, has. split; [exact H1|]. split; [exact H2|]. f_equal. apply map_ext. intros g. destruct (has k g); [|reflexivity].
  rewrite (Permutation_count_occ str_dec) in P. rewrite P. apply (Permutation_count_occ str_dec) in P. rewrite (Permutation_length (filter_perm (fun w => has w g) _ _ P)). reflexivity.
Qed.
Lemma all_entries_perm es ws ws' : all_entries es ws -> all_entries es ws' -> Permutation ws ws'.
Proof. intros [N1 H1] [N2 H2]. apply NoDup_Permutation; [exact N1|exact N2|]. intros x. rewrite H1, H2. tauto. Qed.
Lemma all_categories_perm es ws ws' : all_categories es ws -> all_categories es ws' -> Permutation ws ws'.
Proof. intros [N1 H1] [N2 H2]. apply NoDup_Permutation; [exact N1|exact N2|]. intros x. rewrite H1, H2. tauto. Qed.
Lemma fits_perm ws ws' : Permutation ws ws' -> CmSpec.fits ws -> CmSpec.fits ws'.
Proof. intros P. unfold CmSpec.fits. rewrite (Permutation_length P). tauto. Qed.
Lemma closest_best lower ws ws' cm q f : Permutation ws ws' -> New lower ws [2] cm -> CmSpec.fits ws' -> Closest cm q f ->
  best_match lower ws' q f \/ (f = [] /\ no_match lower ws' q).
Proof.
  intros P A F C. apply (fits_perm _ _ (Permutation_sym P)) in F. destruct (C27_Closest_best _ _ _ _ _ _ A F C) as [[I [SH B]]|[-> H]]; [left|right].
  - split; [apply (Permutation_in _ P); exact I|]. split; [exact SH|]. intros k v v' Ik S1 S2. apply (B k v v'); [apply (Permutation_in _ (Permutation_sym P)); exact Ik| |]; (eapply is_score_perm; [apply Permutation_sym; exact P|assumption]).
  - split; [reflexivity|]. intros k I. apply H. apply (Permutation_in _ (Permutation_sym P)). exact I.
Qed.

(** The files of the entries. *)
Lemma category_normal cat : In cat categories -> normal cat.
Proof. unfold categories. cbn [map In]. intros H. repeat (destruct H as [<-|H]; [repeat split; try discriminate; cbn; intuition discriminate|]). contradiction. Qed.
Lemma entry_file w root es cat name : store_at w root es -> entry es cat name -> exists content, holds es cat name content /\
  Join root (rel cat name) = root ++ slash :: rel cat name /\ lookup w (Join root (rel cat name)) = Found (File content).
Proof.
  intros [C1 [C2 [C3 [B [L W]]]]] [H1 [H2 [sub [c [H3 H4]]]]]. exists c. split; [exists sub; auto|].
  destruct (wfs_in _ _ _ W H3) as [Nc Wd]. inversion Wd as [|? Ws]; subst. destruct (wfs_in _ _ _ Ws H4) as [Nn _].
  assert (Ec : comps (rel cat name) = [cat; name]). { unfold rel. change (cat ++ lit "/" ++ name) with (cat ++ slash :: name). rewrite comps_app, !normal_comps by assumption. reflexivity. }
  assert (E : Join root (rel cat name) = root ++ slash :: rel cat name).
  { apply Join_below; [split; auto|unfold rel; destruct cat; discriminate|]. rewrite Ec. repeat constructor; assumption || apply Nc || apply Nn. }
  split; [exact E|]. rewrite E. rewrite (lookup_below w root (rel cat name) (Dir es)).
  - rewrite Ec. cbn [below]. apply (child_in _ _ _ W) in H3. rewrite H3. apply (child_in _ _ _ Ws) in H4. rewrite H4. reflexivity.
  - intros ->. discriminate.
  - exact L.
  - rewrite Ec. repeat constructor; apply Nc || apply Nn.
Qed.
Lemma entry_file2 w root es f : store_at w root es -> (exists cat name, entry es cat name /\ f = rel cat name) -> f <> [] /\ exists content, entry_content es f content /\
  lookup w (Join root f) = Found (File content) /\ open_read w (Join root f) = Some content.
Proof.
  intros ST [cat [name [E ->]]]. split; [unfold rel; destruct cat; discriminate|]. destruct (entry_file w root es cat name ST E) as [c [H1 [_ H3]]]. exists c. split; [exists cat, name; auto|]. split; [exact H3|]. unfold open_read. rewrite H3. reflexivity.
Qed.
Lemma entry_content_unique es f c c' : wfs es -> entry_content es f c -> entry_content es f c' -> c = c'.
Proof.
  intros W [cat [name [E [[sub [H1 H2]] ->]]]] [cat' [name' [E' [[sub' [H1' H2']] X]]]]. unfold rel in X.
  assert (Nc := proj1 (wfs_in _ _ _ W H1)). assert (Nc' := proj1 (wfs_in _ _ _ W H1')).
  assert (Y : comps (cat ++ slash :: name) = comps (cat' ++ slash :: name')) by (f_equal; exact X). rewrite !comps_app, (normal_comps cat), (normal_comps cat') in Y by assumption. injection Y as Yc Yn. subst cat'.
  apply (f_equal joins) in Yn. rewrite !joins_comps in Yn. subst name'. apply (child_in _ _ _ W) in H1, H1'. rewrite H1 in H1'. injection H1' as <-. assert (Ws : wfs sub). { apply (child_in _ _ _ W), (wfs_in _ _ _ W) in H1. destruct H1 as [_ Wd]. inversion Wd; assumption. }
  apply (child_in _ _ _ Ws) in H2, H2'. congruence.
Qed.
Lemma no_crash lower ws cm q : lower [] = [] -> New lower ws [2] cm -> CmSpec.fits ws -> q <> [] -> ~ crashes cm q.
Proof. intros L A F Q C. apply (C26_crashes_iff lower ws [2] cm q L A F) in C. tauto. Qed.
Lemma rel_nonempty es ws f : all_entries es ws -> In f ws -> f <> [].
Proof. intros [_ H] I. apply H in I. destruct I as [c [n [_ ->]]]. unfold rel. destruct c; discriminate. Qed.
(** Computing the lines of a short content. *)
Fixpoint flines (fuel : nat) (s : str) : list str :=
  match fuel, s with
  | S f, _ :: _ => match split_nl s with Some (a, b) => a :: flines f b | None => [s] end
  | _, _ => []
  end.
Lemma flines_ok fuel : forall s, length s <= fuel -> file_lines s (flines fuel s).
Proof.
  induction fuel as [|f IH]; intros s L; [destruct s; [constructor|cbn in L; lia]|]. destruct s as [|c s]; [constructor|]. cbn [flines]. destruct (split_nl (c :: s)) as [[a b]|] eqn:E.
  - apply split_nl_some in E. destruct E as [E N]. rewrite E in L |- *. apply fl_line; [exact N|]. apply IH. rewrite app_length in L. cbn [length] in L. lia.
  - apply split_nl_none in E. apply fl_last; [discriminate|exact E].
Qed.
Lemma file_lines_short M s ls : file_lines s ls -> length s < M -> Forall (fun l => length l < M) ls.
Proof.
  intros F L. induction F as [|l N1 N2|l rest ls N F IH]; [constructor|repeat constructor; exact L|]. rewrite app_length in L. cbn [length] in L. constructor; [lia|apply IH; lia].
Qed.
Lemma readable_short ls : Forall (fun l => length l < 256 * 256) ls -> readable ls ls.
Proof. induction 1 as [|l ls L F IH]; [constructor|apply rd_line; assumption]. Qed.
Lemma shown_compute s : length s < 256 * 256 -> shown s (map dropCR (flines (length s) s)).
Proof.
  intros L. exists (flines (length s) s), (flines (length s) s). pose proof (flines_ok (length s) s (le_n _)) as F. split; [exact F|]. split; [|apply texts_exists].
  apply readable_short. exact (file_lines_short _ _ _ F L).
Qed.
