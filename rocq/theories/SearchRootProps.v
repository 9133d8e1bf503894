(** * C34, C62: searching the store from its own directory. *)
From Coq Require Import String.
From Coq Require Import ZArith Arith List Bool Lia Permutation Sorting.
From Verif Require Import Utf8 GoStr FsModel RepoModel RepoSpec FsProofs RepoScan RepoProps CmdSpec CmdProofs.
From Verif Require GlobSearch GlobSearchProps GlobSpec.
Import ListNotations.
Open Scope nat_scope.

(** The working directory is the directory [es]. *)
Definition working_in (w : World) (es : list (str * Node)) : Prop := lookup w (lit ".") = Found (Dir es).
Lemma open_from_store w es f c : working_in w es -> wfs es -> entry_content es f c -> open_read w f = Some c.
Proof.
  intros WI W [cat [name [E [[sub [H1 H2]] ->]]]]. destruct (wfs_in _ _ _ W H1) as [Nc Wd]. assert (Ws : wfs sub) by (inversion Wd; assumption). destruct (wfs_in _ _ _ Ws H2) as [Nn _].
  assert (Ec : comps (rel cat name) = [cat; name]). { unfold rel. change (cat ++ lit "/" ++ name) with (cat ++ slash :: name). rewrite comps_app, !normal_comps by assumption. reflexivity. }
  unfold open_read. replace (lookup w (rel cat name)) with (Found (File c)); [reflexivity|]. unfold lookup.
  destruct (rel cat name) as [|r0 rs] eqn:R; [unfold rel in R; destruct cat; discriminate R|].
  assert (Rr : rooted (r0 :: rs) = false). { unfold rel in R. destruct Nc as [N1 [_ [_ N4]]]. destruct cat as [|x cat]; [contradiction|]. cbn in R. injection R as <- _. cbn. apply Z.eqb_neq. intros ->. apply N4. left. reflexivity. }
  rewrite Rr, Ec, resolve_app. unfold working_in, lookup in WI. change (lit ".") with [46%Z] in WI. change (rooted [46%Z]) with false in WI. cbv iota in WI. rewrite resolve_app in WI.
  destruct (descend [] (Dir (tree w)) (cwd w)) as [anc [n| |]]; try discriminate WI. change (comps [46%Z]) with [lit "."] in WI. destruct n as [fc|es']; [discriminate WI|]. cbn in WI. injection WI as ->.
  rewrite resolve_normal by (repeat constructor; assumption || apply Nc || apply Nn). cbn [below]. apply (child_in _ _ _ W) in H1. rewrite H1. apply (child_in _ _ _ Ws) in H2. rewrite H2. reflexivity.
Qed.
Lemma scanned_entries w root es fs : store_at w root es -> Scan w root = Scanned fs -> all_entries es (concat (map snd fs)).
Proof.
  intros [C1 [C2 [C3 [B [L W]]]]] Sc. destruct (C31_scan_lists_exactly_the_entries w root es C1 C2 C3 B L W) as [fs' [E [_ [ND [_ H]]]]]. rewrite Sc in E. injection E as <-. split; [exact ND|]. intros f. rewrite in_concat. split.
  - intros [l [I1 I2]]. apply in_map_iff in I1. destruct I1 as [[cat l'] [E I1]]. cbn in E. subst l'. destruct (proj1 (H cat f)) as [name X]; [eauto|]. exists cat, name. exact X.
  - intros [cat [name X]]. destruct (proj2 (H cat f)) as [l [I1 I2]]; [eauto|]. exists l. split; [|exact I2]. apply in_map_iff. exists (cat, l). auto.
Qed.
Lemma entries_perm es l l' : Permutation l' l -> all_entries es l -> all_entries es l'.
Proof. intros P [ND H]. split; [apply (Permutation_NoDup (Permutation_sym P) ND)|]. intros f. rewrite <- H. split; apply Permutation_in; [exact P|apply Permutation_sym, P]. Qed.
Lemma listed_content w root es f : store_at w root es -> (exists cat name, entry es cat name /\ f = rel cat name) -> exists c, entry_content es f c.
Proof. intros ST E. destruct (entry_file2 _ _ _ _ ST E) as [_ [c [EC _]]]. eauto. Qed.

(** Searching the entries that Scan listed, from the store's directory: one result for each entry, with exactly the matching lines of its content. *)
Theorem C34_search_from_root w root es fs p res : store_at w root es -> working_in w es -> Scan w root = Scanned fs -> search_files w fs p res ->
  all_entries es (map fst res) /\ forall f ms, In (f, ms) res -> exists content texts, entry_content es f content /\ shown content texts /\ matching p texts ms.
Proof.
  intros ST WI Sc Se. apply C34_search_covers_every_file in Se. destruct Se as [P H]. pose proof (entries_perm _ _ _ P (scanned_entries _ _ _ _ ST Sc)) as AE. split; [exact AE|].
  intros f ms I0. destruct (listed_content w root es f ST) as [c EC]; [apply AE; apply (in_map fst) in I0; exact I0|]. specialize (H f ms I0). unfold file_matches in H. rewrite (open_from_store w es f c WI ltac:(apply ST) EC) in H. destruct H as [ts [T M]]. exists c, ts. auto.
Qed.
(** The same with a glob, whatever language the glob decides. *)
Theorem C62_search_from_root (L : str -> Prop) w root es fs o : store_at w root es -> working_in w es -> Scan w root = Scanned fs -> GlobSearchProps.finds L w fs o ->
  exists res, o = GlobSearch.GFound res /\ all_entries es (map fst res) /\
    forall f ms, In (f, ms) res -> exists content texts, entry_content es f content /\ shown content texts /\ ((binary texts /\ ms = []) \/ (~ binary texts /\ GlobSearchProps.lines_in L texts ms)).
Proof.
  intros ST WI Sc [res [-> [P H]]]. exists res. split; [reflexivity|]. pose proof (entries_perm _ _ _ P (scanned_entries _ _ _ _ ST Sc)) as AE. split; [exact AE|].
  intros f ms I0. destruct (listed_content w root es f ST) as [c EC]; [apply AE; apply (in_map fst) in I0; exact I0|]. specialize (H f ms I0). unfold GlobSearchProps.found_lines in H. rewrite (open_from_store w es f c WI ltac:(apply ST) EC) in H. destruct H as [ts [T M]]. exists c, ts. auto.
Qed.
(** The lines of the store that contain a text. *)
Theorem C62_contains_in_store w root es fs cs o : store_at w root es -> working_in w es -> Scan w root = Scanned fs -> cs <> [] -> Forall GlobSpec.writable cs ->
  GlobSearch.GlobSearch w fs (GlobSearchProps.quoted cs) [] o ->
  exists res, o = GlobSearch.GFound res /\ all_entries es (map fst res) /\
    forall f content texts n t, entry_content es f content -> shown content texts -> ~ binary texts ->
      ((exists ms, In (f, ms) res /\ In (n, t) ms) <-> 1 <= n /\ nth_error texts (n - 1) = Some t /\ exists u v, t = u ++ utf8 cs ++ v).
Proof.
  intros ST WI Sc Ne F G. destruct (C62_search_from_root _ w root es fs o ST WI Sc (GlobSearchProps.C62_contains w fs cs o Ne F G)) as [res [-> [AE H]]]. exists res. split; [reflexivity|]. split; [exact AE|].
  intros f c ts n t EC T NB. assert (We : wfs es) by apply ST. split.
  - intros [ms [I1 I2]]. destruct (H f ms I1) as [c' [ts' [EC' [T' K]]]]. rewrite (entry_content_unique _ _ _ _ We EC' EC) in T'. rewrite (RepoLines.shown_unique _ _ _ T' T) in K. destruct K as [[B _]|[_ [_ K]]]; [contradiction|]. apply K. exact I2.
  - intros X. assert (If : In f (map fst res)). { apply AE. destruct EC as [cat [name [E [_ ->]]]]. eauto. } apply in_map_iff in If. destruct If as [[f' ms] [E I1]]. cbn in E. subst f'. exists ms. split; [exact I1|].
    destruct (H f ms I1) as [c' [ts' [EC' [T' K]]]]. rewrite (entry_content_unique _ _ _ _ We EC' EC) in T'. rewrite (RepoLines.shown_unique _ _ _ T' T) in K. destruct K as [[B _]|[_ [_ K]]]; [contradiction|]. apply K. exact X.
Qed.
Print Assumptions C34_search_from_root.
Print Assumptions C62_search_from_root.
Print Assumptions C62_contains_in_store.
(** The store of C62_case, with its directory as working directory. *)
Example C34_case : exists es, store_at GlobSearchProps.c62_world (lit "/vault") es /\ working_in GlobSearchProps.c62_world es /\ Scan GlobSearchProps.c62_world (lit "/vault") = Scanned GlobSearchProps.c62_files
  /\ exists res, search_files GlobSearchProps.c62_world GlobSearchProps.c62_files (fun l => eqs l (lit "pw")) res.
Proof.
  eexists. split; [|split; [|split]].
  - split; [vm_compute; reflexivity|]. split; [discriminate|]. split; [discriminate|]. split; [discriminate|]. split; [vm_compute; reflexivity|]. repeat (constructor; cbn; try (repeat split; cbn; intuition discriminate)).
  - vm_compute; reflexivity.
  - vm_compute; reflexivity.
  - apply C34_total.
Qed.
