(** * C40 and C53: the commands that manage the store; where the store is. *)
From Coq Require Import String.
From Coq Require Import ZArith NArith Arith List Bool Lia Permutation Sorting.
From Verif Require Import GoStr FsModel CmModel CmProofs RepoModel RepoSpec FsProofs RepoScan RepoProps TermModel CmdModel CmSpec CmdSpec CmdProofs FsWrite CmdProps.
Import ListNotations.
Open Scope nat_scope.

(** ** C40 *)
(** insert --file F NAME, the root being an absolute directory: the entry gets F's content, everything else stays as it is. *)
Theorem C40_insert w rs ss name content : rs <> [] -> Forall normal rs -> Forall normal (comps name) -> ss <> [] -> Forall normal ss ->
  let target := rs ++ comps name in
  is_file w ss content -> ss <> target -> is_dir w (removelast target) -> ~ is_dir w target ->
  exists w', Insert w (abs_path rs) (Some (abs_path ss)) name = (w', Done [] [] ENil) /\ only_change w w' target content.
Proof.
  intros Nr Fr Fn Ns Fs target Hs Hd Hp Ht. destruct (join_abs rs name Nr Fr Fn) as [J [NT FT]]. fold target in J, NT, FT. unfold Insert. rewrite J.
  destruct (create w (abs_path target) []) as [w1|] eqn:C1; [|exfalso; apply (create_possible w target []) in C1; [apply C1; auto|assumption|assumption]].
  pose proof (create_effect w target [] w1 NT FT C1) as [E1 [E2 [E3 E4]]].
  assert (O : open_read w1 (abs_path ss) = Some content). { unfold open_read. rewrite lookup_abs by assumption. apply E3 in Hs; [|exact Hd]. unfold is_file in Hs. rewrite Hs. reflexivity. }
  rewrite O. destruct (create w1 (abs_path target) content) as [w2|] eqn:C2.
  - exists w2. split; [reflexivity|]. pose proof (create_effect w1 target content w2 NT FT C2) as [G1 [G2 [G3 G4]]]. split; [congruence|]. split; [exact G2|]. split.
    + intros ms c N. rewrite (G3 ms c N). apply E3. exact N.
    + intros ms N. rewrite (G4 ms N). apply E4. exact N.
  - exfalso. apply (create_possible w1 target content) in C2; [|assumption|assumption]. apply C2. split; [apply E4; [apply removelast_neq; exact NT|exact Hp]|exact (file_not_dir _ _ _ E2)].
Qed.
(** If the entry cannot be created nothing changes and an error is returned. *)
Theorem C40_insert_impossible w rs src name : rs <> [] -> Forall normal rs -> Forall normal (comps name) ->
  ~ (is_dir w (removelast (rs ++ comps name)) /\ ~ is_dir w (rs ++ comps name)) -> Insert w (abs_path rs) (Some src) name = (w, Done [] [] ECreate).
Proof.
  intros Nr Fr Fn H. destruct (join_abs rs name Nr Fr Fn) as [J [NT FT]]. unfold Insert. rewrite J. rewrite (proj2 (create_possible w _ [] NT FT) H). reflexivity.
Qed.
(** Inserting an entry from itself destroys it: the target is truncated before the source is read. *)
Theorem C40_insert_from_itself_refuted w rs name content : rs <> [] -> Forall normal rs -> Forall normal (comps name) ->
  let target := rs ++ comps name in
  is_file w target content -> is_dir w (removelast target) ->
  exists w', Insert w (abs_path rs) (Some (abs_path target)) name = (w', Done [] [] ENil) /\ only_change w w' target [].
Proof.
  intros Nr Fr Fn target Hs Hp. destruct (join_abs rs name Nr Fr Fn) as [J [NT FT]]. fold target in J, NT, FT. assert (Ht := file_not_dir _ _ _ Hs). unfold Insert. rewrite J.
  destruct (create w (abs_path target) []) as [w1|] eqn:C1; [|exfalso; apply (create_possible w target []) in C1; [apply C1; auto|assumption|assumption]].
  pose proof (create_effect w target [] w1 NT FT C1) as [E1 [E2 [E3 E4]]].
  assert (O : open_read w1 (abs_path target) = Some []). { unfold open_read. rewrite lookup_abs by assumption. unfold is_file in E2. rewrite E2. reflexivity. }
  rewrite O. destruct (create w1 (abs_path target) []) as [w2|] eqn:C2.
  - exists w2. split; [reflexivity|]. pose proof (create_effect w1 target [] w2 NT FT C2) as [G1 [G2 [G3 G4]]]. split; [congruence|]. split; [exact G2|]. split.
    + intros ms c N. rewrite (G3 ms c N). apply E3. exact N.
    + intros ms N. rewrite (G4 ms N). apply E4. exact N.
  - exfalso. apply (create_possible w1 target []) in C2; [|assumption|assumption]. apply C2. split; [apply E4; [apply removelast_neq; exact NT|exact Hp]|exact (file_not_dir _ _ _ E2)].
Qed.
(** With the root main uses, "$HOME" is not expanded: unless the working directory has a directory called $HOME, insert fails. *)
Definition main_path : list str := [lit "$HOME"; lit "Documents"; lit "Vault"].
Lemma main_clean : clean_root (lit "$HOME/Documents/Vault"). Proof. vm_compute. intuition discriminate. Qed.
Lemma main_join name : Forall normal (comps name) -> Join (lit "$HOME/Documents/Vault") name = joins (main_path ++ comps name) /\ rooted (joins (main_path ++ comps name)) = false /\ Forall normal (main_path ++ comps name).
Proof.
  intros F. assert (Nn : name <> []) by (intros ->; inversion F as [|? ? [N _] _]; contradiction). split; [|split; [reflexivity|]].
  - rewrite Join_below; [|exact main_clean|exact Nn|exact F]. rewrite joins_app; [|discriminate|apply comps_nonempty]. rewrite joins_comps. reflexivity.
  - apply Forall_app. split; [repeat constructor; try discriminate; vm_compute; intuition discriminate|exact F].
Qed.
Lemma names_rel w ns : rooted (joins ns) = false -> ns <> [] -> Forall normal ns -> Forall normal (cwd w) -> names_of w (joins ns) = cwd w ++ ns.
Proof.
  intros R NE F Fc. unfold names_of. rewrite R. rewrite comps_joins; [|exact NE|apply noslashes; exact F]. rewrite abs_names_normal by (apply Forall_app; auto). reflexivity.
Qed.
Theorem C40_insert_default_root_refuted w os flag src name : os = Linux \/ os = Darwin -> Forall normal (cwd w) -> Forall normal (comps name) ->
  ~ is_dir w (cwd w ++ [lit "$HOME"]) -> Insert w (main_root os flag) (Some src) name = (w, Done [] [] ECreate).
Proof.
  intros OS Fc Fn ND. assert (R : main_root os flag = lit "$HOME/Documents/Vault") by (destruct OS as [->| ->]; reflexivity). unfold Insert. rewrite R. destruct (main_join name Fn) as [J [Rt FT]]. rewrite J.
  unfold create. rewrite names_rel by (assumption || discriminate). destruct (joins (main_path ++ comps name)) as [|c0 s0]; [reflexivity|].
  destruct (create_at (tree w) (cwd w ++ main_path ++ comps name) []) as [t|] eqn:C; [|reflexivity]. exfalso.
  assert (X : exists t, create_at (tree w) (cwd w ++ main_path ++ comps name) [] = Some t) by (exists t; exact C). apply create_at_possible in X. destruct X as [_ [D _]]. apply ND.
  assert (E : removelast (cwd w ++ main_path ++ comps name) = (cwd w ++ [lit "$HOME"]) ++ [lit "Documents"; lit "Vault"] ++ removelast (comps name)).
  { rewrite removelast_app by discriminate. rewrite <- app_assoc. f_equal. unfold main_path. cbn [app]. pose proof (comps_nonempty name). destruct (comps name) as [|a l]; [contradiction|]. reflexivity. }
  rewrite E in D. apply dirn_prefix in D. exact D.
Qed.
(** init, remove, rename, copy, query, and insert without a file, change nothing. *)
Theorem C40_other_commands_change_nothing w sub rec force name old new q groot :
  fst (Init w sub) = w /\ fst (Remove w rec force name) = w /\ fst (Rename w force old new) = w /\ fst (Copy w force old new) = w /\ fst (Query w q) = w /\ fst (Insert w groot None name) = w.
Proof. repeat split. Qed.
(** What they print; none of them fails. *)
Definition yes (b : bool) : str := if b then lit "true" else lit "false".
Theorem C40_other_commands_print w sub rec force name old new q groot :
  Init w sub = (w, Done (lit "Folder: " ++ sub ++ eol) [] ENil) /\
  Remove w rec force name = (w, Done (lit "Recursive: " ++ yes rec ++ eol ++ lit "Force: " ++ yes force ++ eol ++ lit "Pass name: " ++ name ++ eol) [] ENil) /\
  Rename w force old new = (w, Done (lit "Force: " ++ yes force ++ eol ++ lit "Old path: " ++ old ++ eol ++ lit "New path: " ++ new ++ eol) [] ENil) /\
  Copy w force old new = (w, Done (lit "Force: " ++ yes force ++ eol ++ lit "Old path: " ++ old ++ eol ++ lit "New path: " ++ new ++ eol) [] ENil) /\
  Query w q = (w, Done [] [] ENil) /\ Insert w groot None name = (w, Done (lit "site: ") [] ENil).
Proof. repeat split. Qed.
(** An entry that was listed but is not there is reported: with a root that is not clean that can happen. *)
Theorem C35_listed_but_missing lower w env groot fs a o : lower [] = [] -> Scan w (ExpandEnv (getenv env) groot) = Scanned fs -> CmSpec.fits (concat (map snd fs)) -> ShowName a <> [] ->
  (forall f, In f (concat (map snd fs)) -> f <> [] /\ lookup w (Join (ExpandEnv (getenv env) groot) f) = NotExist) -> ~ no_match lower (concat (map snd fs)) (ShowName a) ->
  Show lower w env groot a o -> o = Done [] [] ENoFile.
Proof.
  intros Ll SC F NE M NM H. unfold Show, after_scan, root_of in H. rewrite SC in H. rewrite (eqs_false _ _ NE) in H. destruct H as [order [[fs' [P ->]] [cm [A H]]]].
  assert (PO : Permutation (concat (map snd fs')) (concat (map snd fs))) by (rewrite <- !flat_map_concat_map; apply Permutation_flat_map; exact P).
  destruct H as [[C _]|[f [C H]]]; [exfalso; exact (no_crash lower _ cm (ShowName a) Ll A (fits_perm _ _ (Permutation_sym PO) F) NE C)|].
  destruct (closest_best lower _ _ cm _ _ PO A F C) as [[I _]|[-> N]]; [|contradiction]. destruct (M f I) as [Nf L]. destruct f as [|c f]; [contradiction|]. rewrite L in H. exact H.
Qed.
Example C35_listed_but_missing_example lower env o : (forall s, lower s = s) ->
  Show lower {| tree := [(lit "v", Dir [(lit "xsites", Dir [(lit "a", File [])])])]; cwd := [] |} env (lit "/v/") {| LineNumbers := false; Line := 0; Field := []; QrCode := false; ShowName := lit "sites/a" |} o -> o = Done [] [] ENoFile.
Proof.
  intros Hl. apply (C35_listed_but_missing lower _ env (lit "/v/") [(lit "sites", [lit "sites/a"])]).
  - apply Hl.
  - reflexivity.
  - vm_compute; discriminate.
  - discriminate.
  - intros f [<-|[]]. split; [discriminate|reflexivity].
  - intros N. apply (N (lit "sites/a")); [left; reflexivity|]. apply shares_dec. rewrite Hl. vm_compute. reflexivity.
Qed.
Example ex_insert : exists w', Insert world1 (lit "/vault") (Some (lit "/x")) (lit "sites/new") = (w', Done [] [] ENil) /\ lookup w' (lit "/vault/sites/new") = Found (File []) /\ lookup w' (lit "/vault/bank/abn") = Found (File (lit "pw")).
Proof. eexists. split; [vm_compute; reflexivity|]. split; vm_compute; reflexivity. Qed.
Example ex_insert_hyps : let target := [lit "vault"] ++ comps (lit "sites/new") in
  is_file world1 [lit "x"] [] /\ [lit "x"] <> target /\ is_dir world1 (removelast target) /\ ~ is_dir world1 target /\ Forall normal (comps (lit "sites/new")).
Proof.
  cbv zeta. split; [reflexivity|]. split; [discriminate|]. split; [eexists; vm_compute; reflexivity|]. split; [intros [e E]; vm_compute in E; discriminate|]. repeat constructor; try discriminate; vm_compute; intuition discriminate.
Qed.

(** ** C53 *)
(** On Windows, Linux and macOS the --root flag has no effect. *)
Theorem C53_root_flag_ignored_refuted os flag flag' : os <> OtherOS -> main_root os flag = main_root os flag'.
Proof. destruct os; intros H; try reflexivity. contradiction. Qed.
(** With HOME a clean absolute path (not "/"), the store is HOME/Documents/Vault and every command above works on it. *)
Lemma Base_snoc d n : ~ In slash n -> n <> [] -> Base (d ++ slash :: n) = n.
Proof.
  intros N NE. unfold Base. rewrite rev_app_distr. cbn [rev]. rewrite <- app_assoc. destruct (rev n) as [|a l] eqn:R; [apply (f_equal (@rev _)) in R; rewrite rev_involutive in R; contradiction|].
  assert (I : forall x, In x (a :: l) -> notslash x = true).
  { intros x I. rewrite <- R in I. apply in_rev in I. unfold notslash. destruct (Z.eqb_spec x slash) as [->|]; [contradiction|reflexivity]. }
  assert (K : forall u, (forall x, In x u -> notslash x = true) -> takew notslash (u ++ slash :: rev d) = u).
  { induction u as [|x u IHu]; intros Hu; [reflexivity|]. cbn [app takew]. rewrite (Hu x) by (left; reflexivity). rewrite IHu; [reflexivity|]. intros y Hy. apply Hu. right. exact Hy. }
  assert (D : dropw (fun c => negb (notslash c)) ((a :: l) ++ [slash] ++ rev d) = (a :: l) ++ slash :: rev d) by (cbn [app dropw]; rewrite (I a) by (left; reflexivity); reflexivity).
  rewrite D. cbn [app]. change (a :: l ++ slash :: rev d) with ((a :: l) ++ slash :: rev d). rewrite (K (a :: l) I). rewrite <- R, rev_involutive. reflexivity.
Qed.
Theorem C53_home_store w env os flag h es : os = Linux \/ os = Darwin -> env (lit "HOME") = Some h -> Clean h = h -> h <> lit "." -> h <> lit "/" ->
  lookup w (h ++ lit "/Documents/Vault") = Found (Dir es) -> wfs es ->
  ExpandEnv (getenv env) (main_root os flag) = h ++ lit "/Documents/Vault" /\ store_at w (h ++ lit "/Documents/Vault") es.
Proof.
  intros OS E C1 C2 C3 L W. assert (R : main_root os flag = lit "$HOME/Documents/Vault") by (destruct OS as [->| ->]; reflexivity). split.
  - rewrite R. change (ExpandEnv (getenv env) (lit "$HOME/Documents/Vault")) with (getenv env (lit "HOME") ++ lit "/Documents/Vault"). unfold getenv. rewrite E. reflexivity.
  - change (lit "/Documents/Vault") with (slash :: lit "Documents/Vault") in *. assert (CR : clean_root (h ++ slash :: lit "Documents/Vault")). { apply clean_root_below; [split; auto|]. repeat constructor; try discriminate; vm_compute; intuition discriminate. }
    destruct CR as [D1 [D2 D3]]. split; [exact D1|]. split; [exact D2|]. split; [exact D3|]. split; [|auto].
    replace (h ++ slash :: lit "Documents/Vault") with ((h ++ lit "/Documents") ++ slash :: lit "Vault") by (rewrite <- app_assoc; reflexivity). rewrite Base_snoc; [discriminate|vm_compute; intuition discriminate|discriminate].
Qed.
Theorem C53_home_unset env os flag : os = Linux \/ os = Darwin -> env (lit "HOME") = None -> ExpandEnv (getenv env) (main_root os flag) = lit "/Documents/Vault".
Proof. intros OS E. assert (R : main_root os flag = lit "$HOME/Documents/Vault") by (destruct OS as [->| ->]; reflexivity). rewrite R. change (ExpandEnv (getenv env) (lit "$HOME/Documents/Vault")) with (getenv env (lit "HOME") ++ lit "/Documents/Vault"). unfold getenv. rewrite E. reflexivity. Qed.

(** *** HOME with a trailing slash *)
Lemma Clean_double h p : Clean (h ++ slash :: slash :: p) = Clean (h ++ slash :: p).
Proof.
  unfold Clean, clean_stack. assert (R : rooted (h ++ slash :: slash :: p) = rooted (h ++ slash :: p)) by (destruct h; reflexivity). rewrite R.
  rewrite comps_app. change (comps (slash :: p)) with ([] :: comps p). rewrite comps_app. rewrite !fold_left_app. reflexivity.
Qed.
Lemma unclean_rooted st : In slash (unclean true st).
Proof. destruct st; left; reflexivity. Qed.
Lemma joins_included ns : ns <> [] -> included (joins ns) = true -> exists d, ns = [d].
Proof. intros NE I. destruct ns as [|a [|b ns]]; [contradiction|exists a; reflexivity|]. apply included_normal in I. destruct I as [I _]. exfalso. apply I. apply joins_two. Qed.
Lemma dir_tail d init : (forall x, In x init -> normal x) -> ~ In slash d -> ~ In d categories -> d <> lit "." ->
  included (Clean (joins (d :: init) ++ [slash])) = false.
Proof.
  intros F Ns Nc Nd. assert (Fi : Forall normal init) by (apply Forall_forall; exact F). destruct (included _) eqn:I; [exfalso|reflexivity].
  assert (Ec : comps (joins (d :: init) ++ [slash]) = (d :: init) ++ [[]]).
  { change [slash] with (slash :: @nil Z). rewrite comps_app, comps_joins; [reflexivity|discriminate|]. constructor; [exact Ns|apply noslashes; exact Fi]. }
  destruct d as [|c d].
  - assert (R : rooted (joins ([] :: init) ++ [slash]) = true) by (destruct init; reflexivity). unfold Clean in I. rewrite R in I. apply included_normal in I. destruct I as [I _]. apply I. apply unclean_rooted.
  - assert (R : rooted (joins ((c :: d) :: init) ++ [slash]) = false).
    { assert (X : (c =? slash)%Z = false) by (apply Z.eqb_neq; intros ->; apply Ns; left; reflexivity). destruct init; cbn [joins app rooted]; exact X. }
    unfold Clean, clean_stack in I. rewrite R, Ec in I. rewrite fold_left_app in I. cbn [fold_left] in I.
    assert (St : clean_step false [] (c :: d) = [c :: d]).
    { unfold clean_step. rewrite (eqs_false (c :: d) []) by discriminate. rewrite (eqs_false (c :: d) (lit ".")) by exact Nd. cbn [orb]. destruct (eqs (c :: d) (lit "..")); reflexivity. }
    rewrite St, clean_fold_normal in I by exact Fi. assert (Sk : forall st, clean_step false st [] = st) by reflexivity. rewrite Sk in I.
    unfold unclean in I. destruct (rev init ++ [c :: d]) as [|u l] eqn:E; [destruct (rev init); discriminate|]. rewrite <- E in I. rewrite rev_app_distr, rev_involutive in I. cbn [rev app] in I.
    destruct (joins_included ((c :: d) :: init) ltac:(discriminate) I) as [x X]. injection X as <- ->. apply included_in in I. exact (Nc I).
Qed.
Lemma dir_tail2 c d ns : Forall normal ns -> ~ In slash (c :: d) -> ~ In d categories -> d <> lit "." -> included (DirOf (tl (joins ((c :: d) :: ns)))) = false.
Proof.
  intros F Ns Nc Nd. assert (Nd2 : ~ In slash d) by (intros I; apply Ns; right; exact I). destruct ns as [|n ns] using rev_ind.
  - cbn [joins tl]. unfold DirOf. rewrite (dropw_all notslash (rev d)); [reflexivity|apply Forall_rev; apply noslash_forall; exact Nd2].
  - clear IHns. apply Forall_app in F. destruct F as [F1 F2]. inversion F2 as [|? ? [_ [_ [_ Nn]]] _]; subst.
    assert (E : tl (joins ((c :: d) :: ns ++ [n])) = joins (d :: ns) ++ slash :: n).
    { change ((c :: d) :: ns ++ [n]) with (((c :: d) :: ns) ++ [n]). rewrite joins_snoc by discriminate. destruct ns; reflexivity. }
    rewrite E, DirOf_snoc by exact Nn. apply dir_tail; [intros x I; rewrite Forall_forall in F1; apply F1; exact I|exact Nd2|exact Nc|exact Nd].
Qed.
Lemma joins_nonempty ns : ns <> [] -> Forall normal ns -> joins ns <> [].
Proof. intros NE F E. assert (X := comps_joins ns NE (noslashes ns F)). rewrite E in X. cbn in X. destruct ns as [|a [|b l]]; try discriminate. injection X as <-. inversion F as [|? ? [N _] _]; contradiction. Qed.
Lemma walk_shift root' c d : clean_root root' -> ~ In d categories -> d <> lit "." -> normal (c :: d) -> forall nd, wf nd -> forall ns name fs, Forall normal ns ->
  walk (length root' + 2) (path_of root' ((c :: d) :: ns)) name nd fs = Some fs.
Proof.
  intros CR Nc Nd Nn. induction nd as [x|es IH] using node_ind2; intros W ns name fs F.
  - cbn [walk]. unfold visit_file. cbn [path_of]. assert (NE := joins_nonempty ((c :: d) :: ns) ltac:(discriminate) ltac:(constructor; assumption)). remember (joins ((c :: d) :: ns)) as j eqn:Ej. destruct j as [|j0 j]; [contradiction|].
    rewrite app_length. cbn [length]. destruct (Nat.ltb_spec (length root' + S (S (length j))) (length root' + 2)); [lia|].
    replace (skipn (length root' + 2) (root' ++ slash :: j0 :: j)) with j.
    2:{ rewrite skipn_app. rewrite skipn_all2 by lia. replace (length root' + 2 - length root') with 2 by lia. reflexivity. }
    destruct (eqs name _); [reflexivity|]. assert (E : j = tl (joins ((c :: d) :: ns))) by (rewrite <- Ej; reflexivity). rewrite E, dir_tail2; [reflexivity|exact F|apply Nn|exact Nc|exact Nd].
  - rewrite walk_dir. destruct (eqs name (lit ".git")); [reflexivity|]. inversion W as [|? We]; subst. clear W. revert fs. induction es as [|[nm x] es IHe]; intros fs; [reflexivity|].
    inversion IH as [|? ? Hx IH']; subst. inversion We as [|? ? ? Hn Wx We' _]; subst. cbn [entries_walk]. fold (entries_walk (length root' + 2) (path_of root' ((c :: d) :: ns))).
    rewrite path_join; [|exact CR|constructor; assumption|exact Hn]. cbn [snd] in Hx. change (((c :: d) :: ns) ++ [nm]) with ((c :: d) :: ns ++ [nm]). rewrite Hx; [|exact Wx|apply Forall_app; auto]. apply IHe; assumption.
Qed.
(** With HOME ending in a slash (for example "/"), every store whose directories are not named like a category with a character
    in front (or a character and a dot) is listed as empty, whatever its entries. *)
Theorem C53_home_trailing_slash_refuted w env os flag h es : os = Linux \/ os = Darwin -> env (lit "HOME") = Some (h ++ lit "/") -> (h = [] \/ (Clean h = h /\ h <> lit "." /\ h <> lit "/")) ->
  lookup w (h ++ lit "//Documents/Vault") = Found (Dir es) -> wfs es ->
  (forall c d x, In (c :: d, x) es -> ~ In d (map lit ["people"; "email"; "phone"; "sites"; "devices"; "bank"]%string) /\ d <> lit ".") ->
  Scan w (ExpandEnv (getenv env) (main_root os flag)) = Scanned [].
Proof.
  intros OS E Hh L W HN. assert (R : main_root os flag = lit "$HOME/Documents/Vault") by (destruct OS as [->| ->]; reflexivity). rewrite R.
  change (ExpandEnv (getenv env) (lit "$HOME/Documents/Vault")) with (getenv env (lit "HOME") ++ lit "/Documents/Vault"). unfold getenv. rewrite E. rewrite <- app_assoc. change (lit "/" ++ lit "/Documents/Vault") with (lit "//Documents/Vault").
  change (lit "//Documents/Vault") with (slash :: slash :: lit "Documents/Vault") in *. set (root := h ++ slash :: slash :: lit "Documents/Vault") in *. set (root' := h ++ slash :: lit "Documents/Vault").
  assert (Dv : Forall normal (comps (lit "Documents/Vault"))) by (repeat constructor; try discriminate; vm_compute; intuition discriminate).
  assert (CR : clean_root root').
  { unfold root'. destruct Hh as [->|Hh]; [|apply clean_root_below; [exact Hh|exact Dv]]. vm_compute. intuition discriminate. }
  assert (Len : length root + 1 = length root' + 2) by (unfold root, root'; rewrite !app_length; cbn [length]; lia).
  unfold Scan. rewrite L, Len. rewrite walk_dir. destruct (eqs (Base root) (lit ".git")); [reflexivity|].
  assert (K : forall es, wfs es -> (forall c d x, In (c :: d, x) es -> ~ In d categories /\ d <> lit ".") -> entries_walk (length root' + 2) root es [] = Some []).
  { clear -CR Dv. induction es as [|[nm x] es IH]; intros We HN; [reflexivity|]. inversion We as [|? ? ? Hn Wx We' _]; subst. cbn [entries_walk]. fold (entries_walk (length root' + 2) root).
    assert (J : Join root nm = path_of root' [nm]).
    { assert (J1 : Join root nm = Join root' nm).
      { destruct nm as [|n0 nm]; [destruct Hn; contradiction|]. unfold Join, root, root'. destruct h as [|h0 h].
        - cbn [app]. change (slash :: slash :: lit "Documents/Vault" ++ slash :: n0 :: nm) with ([] ++ slash :: slash :: (lit "Documents/Vault" ++ slash :: n0 :: nm)). exact (Clean_double [] (lit "Documents/Vault" ++ slash :: n0 :: nm)).
        - change ((h0 :: h) ++ slash :: slash :: lit "Documents/Vault") with (h0 :: (h ++ slash :: slash :: lit "Documents/Vault")). change ((h0 :: h) ++ slash :: lit "Documents/Vault") with (h0 :: (h ++ slash :: lit "Documents/Vault")). cbv iota.
          replace ((h0 :: h ++ slash :: slash :: lit "Documents/Vault") ++ slash :: n0 :: nm) with ((h0 :: h) ++ slash :: slash :: (lit "Documents/Vault" ++ slash :: n0 :: nm)) by (cbn [app]; rewrite <- app_assoc; reflexivity).
          replace ((h0 :: h ++ slash :: lit "Documents/Vault") ++ slash :: n0 :: nm) with ((h0 :: h) ++ slash :: (lit "Documents/Vault" ++ slash :: n0 :: nm)) by (cbn [app]; rewrite <- app_assoc; reflexivity). apply Clean_double. }
      rewrite J1. apply (path_join root' []); [exact CR|constructor|exact Hn]. }
    rewrite J. destruct nm as [|c d]; [destruct Hn; contradiction|]. destruct (HN c d x ltac:(left; reflexivity)) as [H1 H2]. rewrite (walk_shift root' c d CR H1 H2 Hn x Wx []); [|constructor]. apply IH; [exact We'|]. intros c' d' x' I. apply (HN c' d' x'). right. exact I. }
  rewrite K; [reflexivity|exact W|]. intros c d x I. apply (HN c d x). exact I.
Qed.
Example ex_home : let env := fun k => if str_dec k (lit "HOME") then Some (lit "/home/u/") else None in
  let w := {| tree := [(lit "home", Dir [(lit "u", Dir [(lit "Documents", Dir [(lit "Vault", Dir vault)])])])]; cwd := [] |} in
  lookup w (lit "/home/u" ++ lit "//Documents/Vault") = Found (Dir vault) /\ Clean (lit "/home/u") = lit "/home/u" /\ (forall c d x, In (c :: d, x) vault -> ~ In d (map lit ["people"; "email"; "phone"; "sites"; "devices"; "bank"]%string) /\ d <> lit ".").
Proof.
  cbv zeta. split; [vm_compute; reflexivity|]. split; [vm_compute; reflexivity|]. intros c d x [I|[I|[]]]; injection I as <- <- <-; (split; [vm_compute; intuition discriminate|discriminate]).
Qed.

Print Assumptions C40_insert.
Print Assumptions C40_insert_impossible.
Print Assumptions C40_insert_from_itself_refuted.
Print Assumptions C40_insert_default_root_refuted.
Print Assumptions C40_other_commands_change_nothing.
Print Assumptions C40_other_commands_print.
Print Assumptions C35_listed_but_missing.
Print Assumptions C53_root_flag_ignored_refuted.
Print Assumptions C53_home_store.
Print Assumptions C53_home_unset.
Print Assumptions C53_home_trailing_slash_refuted.
