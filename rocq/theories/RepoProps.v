(** * C31-C34: scanning the store, reading lines, searching. *)
From Coq Require Import String.
From Coq Require Import ZArith Arith List Bool Lia Sorting Permutation.
From Verif Require Import GoStr FsModel CmModel CmProofs RepoModel RepoSpec FsProofs RepoLines RepoScan.
Import ListNotations.
Open Scope nat_scope.

(** ** C31 *)
Lemma store_facts es : wfs es ->
  let fs := appends [] (store_list es) in
  NoDup (map fst fs) /\ NoDup (concat (map snd fs))
    /\ (forall cat l, In (cat, l) fs -> l <> [] /\ StronglySorted (fun a b => str_lt a b = true) l)
    /\ (forall cat f, (exists l, In (cat, l) fs /\ In f l) <-> exists name, entry es cat name /\ f = rel cat name).
Proof.
  intros W fs.
  assert (ND : NoDup (map fst fs)) by (apply appends_nodup; constructor).
  assert (G : forall cat l, In (cat, l) fs <-> under cat (store_list es) = l /\ l <> []).
  { intros cat l. rewrite <- (get_in str_dec) by exact ND. unfold fs. rewrite get_appends. cbn [get]. destruct (under cat (store_list es)) as [|a u]; split; try discriminate.
    - intros [<- X]. contradiction.
    - intros E. injection E as <-. split; [reflexivity|discriminate].
    - intros [<- _]. reflexivity. }
  assert (M : forall cat f, In f (under cat (store_list es)) <-> exists name, entry es cat name /\ f = rel cat name).
  { intros cat f. rewrite under_store by exact W. unfold entry. split.
    - destruct (child es cat) as [[c|sub]|] eqn:E; try contradiction. destruct (included cat) eqn:I; [|contradiction]. rewrite in_map_iff. intros [name [<- H]]. apply filenames_in in H. destruct H as [H1 [c H2]].
      exists name. split; [|reflexivity]. split; [apply included_in; exact I|]. split; [exact H1|]. exists sub, c. split; [apply (child_in es cat _ W); exact E|exact H2].
    - intros [name [[H1 [H2 [sub [c [H3 H4]]]]] ->]]. apply (child_in es cat _ W) in H3. rewrite H3. change (In cat categories) in H1. apply included_in in H1. rewrite H1. apply in_map. apply filenames_in. split; [exact H2|exists c; exact H4]. }
  assert (S1 : forall cat, sorted (under cat (store_list es))).
  { intros cat. rewrite under_store by exact W. destruct (child es cat) as [[c|sub]|] eqn:E; try constructor. destruct (included cat); [|constructor]. apply rel_sorted. apply filenames_sorted.
    apply (child_in es cat _ W), (wfs_in _ _ _ W) in E. destruct E as [_ Wd]. inversion Wd; assumption. }
  repeat apply conj.
  - exact ND.
  - assert (D : forall c f, In f (under c (store_list es)) -> exists a, f = c ++ lit "/" ++ a /\ ~ In slash c).
    { intros c f H. apply M in H. destruct H as [nm [[H1 _] ->]]. exists nm. split; [reflexivity|]. change (In c categories) in H1. apply included_in, included_normal in H1. tauto. }
    assert (Q : forall l, NoDup (map fst l) -> (forall c u, In (c, u) l -> u = under c (store_list es)) -> NoDup (concat (map snd l))).
    { clear -D S1. induction l as [|[c u] l IH]; intros N H; [constructor|]. cbn [map fst snd concat] in *. inversion N as [|? ? N1 N2]; subst.
      assert (Eu := H c u ltac:(left; reflexivity)). assert (Nu : NoDup u) by (rewrite Eu; apply sorted_nodup; apply S1).
      assert (Nl : NoDup (concat (map snd l))) by (apply IH; [exact N2|intros c' u' I; apply H; right; exact I]).
      assert (X : forall f, In f u -> ~ In f (concat (map snd l))).
      { intros f I1 I2. apply in_concat in I2. destruct I2 as [u' [I2 I3]]. apply in_map_iff in I2. destruct I2 as [[c' u''] [E I2]]. cbn [snd] in E. subst u''.
        assert (Eu' := H c' u' ltac:(right; exact I2)). rewrite Eu in I1. rewrite Eu' in I3. apply D in I1. apply D in I3. destruct I1 as [a [E1 Ns1]], I3 as [b [E2 Ns2]].
        apply N1. apply in_map_iff. exists (c', u'). split; [|exact I2]. cbn [fst]. rewrite E1 in E2. change (lit "/" ++ a) with (slash :: a) in E2. change (lit "/" ++ b) with (slash :: b) in E2.
        clear -E2 Ns1 Ns2. revert c' Ns2 E2. induction c as [|x c IH]; intros [|y c'] Ns2 E2; [reflexivity| | |].
        - exfalso. cbn in E2. injection E2 as E _. apply Ns2. left. symmetry. exact E.
        - exfalso. cbn in E2. injection E2 as E _. apply Ns1. left. exact E.
        - cbn in E2. injection E2 as -> E2. f_equal. apply IH; [intros I; apply Ns1; right; exact I|intros I; apply Ns2; right; exact I|exact E2]. }
      clear -Nu Nl X. induction u as [|a u IHu]; [exact Nl|]. inversion Nu; subst. cbn [app]. constructor; [|apply IHu; [assumption|intros f I; apply X; right; exact I]].
      rewrite in_app_iff. intros [I|I]; [contradiction|]. apply (X a); [left; reflexivity|exact I]. }
    apply Q; [exact ND|]. intros c u I. apply G in I. symmetry. tauto.
  - intros cat l I. apply G in I. destruct I as [<- NE]. split; [exact NE|apply S1].
  - intros cat f. rewrite <- M. split.
    + intros [l [I1 I2]]. apply G in I1. destruct I1 as [-> _]. exact I2.
    + intros I. exists (under cat (store_list es)). split; [apply G; split; [reflexivity|intros E; rewrite E in I; contradiction]|exact I].
Qed.
(** For a clean root other than "." and "/", not itself called .git: Scan lists exactly the entries, each once, under its
    category, in lexical order; every listed category is non-empty. *)
Theorem C31_scan_lists_exactly_the_entries w root es :
  Clean root = root -> root <> lit "." -> root <> lit "/" -> Base root <> lit ".git" -> lookup w root = Found (Dir es) -> wfs es ->
  exists fs, Scan w root = Scanned fs
    /\ NoDup (map fst fs) /\ NoDup (concat (map snd fs))
    /\ (forall cat l, In (cat, l) fs -> l <> [] /\ StronglySorted (fun a b => str_lt a b = true) l)
    /\ (forall cat f, (exists l, In (cat, l) fs /\ In f l) <-> exists name, entry es cat name /\ f = rel cat name).
Proof.
  intros C1 C2 C3 B L W. exists (appends [] (store_list es)). split; [apply scan_result; [split; auto|assumption|assumption|assumption]|].
  exact (store_facts es W).
Qed.
(** Nothing below a directory named .git is ever listed, even if the categories are inside it. *)
Theorem C31_root_called_git w root es : lookup w root = Found (Dir es) -> Base root = lit ".git" -> Scan w root = Scanned [].
Proof. intros L B. unfold Scan. rewrite L, B. rewrite walk_dir. reflexivity. Qed.
(** A missing root is reported. *)
Theorem C31_missing_root w root : lookup w root = NotExist -> Scan w root = RootMissing.
Proof. intros L. unfold Scan. rewrite L. reflexivity. Qed.
(** The claim fails for roots that are not clean: with a trailing slash every path loses its first character, so a store with
    entries is listed as empty (and "Xsites/a" would be listed as "sites/a"); with the root "." a file with a one-letter name crashes Scan. *)
Definition vault : list (str * Node) := [(lit "bank", Dir [(lit "abn", File (lit "pw"))]); (lit "sites", Dir [(lit ".DS_Store", File []); (lit "github", File (lit "pw2"))])].
Definition world1 : World := {| tree := [(lit "vault", Dir vault); (lit "x", File [])]; cwd := [] |}.
Lemma vault_wfs : wfs vault.
Proof. repeat (constructor; cbn; try (repeat split; cbn; intuition discriminate)). Qed.
Theorem C31_unclean_root_refuted : exists w es cat name, wfs es /\ lookup w (lit "/vault/") = Found (Dir es) /\ entry es cat name /\ Scan w (lit "/vault/") = Scanned [].
Proof.
  exists world1, vault, (lit "bank"), (lit "abn"). split; [exact vault_wfs|]. split; [vm_compute; reflexivity|]. split; [|vm_compute; reflexivity].
  split; [vm_compute; tauto|]. split; [discriminate|]. exists [(lit "abn", File (lit "pw"))], (lit "pw"). split; left; reflexivity.
Qed.
Theorem C31_dot_root_refuted : exists w es, wfs es /\ lookup w (lit ".") = Found (Dir es) /\ Scan w (lit ".") = ScanPanic.
Proof.
  exists world1, (tree world1). split; [|split; vm_compute; reflexivity]. repeat (constructor; cbn; try (repeat split; cbn; intuition discriminate)).
Qed.
(** Files outside the store's categories can be listed under a wrong name when the root is unclean. *)
Theorem C31_unclean_root_misnames : exists w es cat l, wfs es /\ lookup w (lit "/v/") = Found (Dir es) /\ (forall name, ~ entry es cat name) /\ Scan w (lit "/v/") = Scanned [(cat, l)] /\ l <> [].
Proof.
  exists {| tree := [(lit "v", Dir [(lit "xsites", Dir [(lit "a", File [])])])]; cwd := [] |}, [(lit "xsites", Dir [(lit "a", File [])])], (lit "sites"), [lit "sites/a"].
  split; [repeat (constructor; cbn; try (repeat split; cbn; intuition discriminate))|]. split; [vm_compute; reflexivity|]. split; [|split; [vm_compute; reflexivity|discriminate]].
  intros name [_ [_ [sub [c [[E|[]] _]]]]]. discriminate.
Qed.
Example ex_scan : Scan world1 (lit "/vault") = Scanned [(lit "bank", [lit "bank/abn"]); (lit "sites", [lit "sites/github"])].
Proof. vm_compute. reflexivity. Qed.
Example ex_scan_hyps : Clean (lit "/vault") = lit "/vault" /\ Base (lit "/vault") <> lit ".git" /\ lookup world1 (lit "/vault") = Found (Dir vault).
Proof. vm_compute. intuition discriminate. Qed.

(** ** C32 *)
(** However the file is read in pieces, the handler sees the texts of the lines before the first overlong one, numbered from 1,
    until it returns an error; a first line with a NUL is refused before the handler is called. *)
Theorem C32_lines {St} (handle : nat -> str -> St -> St * HErr) w f st st' e content texts :
  open_read w f = Some content -> shown content texts -> GetFileContentByLine handle w f st st' e ->
  (binary texts /\ st' = st /\ e = LBinary) \/ (~ binary texts /\ st' = handle_all handle 1 texts st /\ e = LNil).
Proof. intros O T G. exact (get_spec handle w f st st' e content O G texts T). Qed.
(** Recording handler: all lines are visited, in order, with their numbers. *)
Theorem C32_every_line_once w f st' e content texts : open_read w f = Some content -> shown content texts -> ~ binary texts ->
  GetFileContentByLine (fun n t (st : list (nat * str)) => (st ++ [(n, t)], HNil)) w f [] st' e -> st' = numbered 1 texts /\ e = LNil.
Proof.
  intros O T B G. destruct (C32_lines _ _ _ _ _ _ _ _ O T G) as [[X _]|[_ [-> ->]]]; [contradiction|]. split; [|reflexivity].
  assert (K : forall ts n acc, handle_all (fun n t (st : list (nat * str)) => (st ++ [(n, t)], HNil)) n ts acc = acc ++ numbered n ts).
  { induction ts as [|t ts IH]; intros n acc; cbn [handle_all numbered]; [rewrite app_nil_r; reflexivity|]. rewrite IH, <- app_assoc. reflexivity. }
  apply K.
Qed.
(** The texts of a content exist and are unique, and reading always ends with a result. *)
Theorem C32_total {St} (handle : nat -> str -> St -> St * HErr) w f st :
  (exists st' e, GetFileContentByLine handle w f st st' e) /\ forall content, exists! texts, shown content texts.
Proof.
  split; [apply get_total|]. intros content. destruct (shown_exists content) as [ts T]. exists ts. split; [exact T|]. intros ts' T'. exact (shown_unique _ _ _ T T').
Qed.
(** A file that cannot be opened is reported, and the handler is not called. *)
Theorem C32_open_error {St} (handle : nat -> str -> St -> St * HErr) w f st st' e : open_read w f = None -> GetFileContentByLine handle w f st st' e -> st' = st /\ e = LOpen.
Proof. intros O G. inversion G as [X|c s1 e1 X R]; subst; [auto|congruence]. Qed.
(** A directory can be opened but has no lines: the handler is not called and no error is reported. *)
Theorem C32_directory {St} (handle : nat -> str -> St -> St * HErr) w f es st st' e : lookup w f = Found (Dir es) -> GetFileContentByLine handle w f st st' e -> st' = st /\ e = LNil.
Proof.
  intros L G. assert (O : open_read w f = Some []) by (unfold open_read; rewrite L; reflexivity). destruct (shown_exists []) as [ts T].
  assert (ts = []). { apply (shown_unique [] _ _ T). exists [], []. split; [constructor|]. split; constructor. } subst ts.
  destruct (C32_lines handle w f st st' e [] [] O T G) as [[B _]|[_ [-> ->]]]; [destruct B|auto].
Qed.
(** A missing file or one below a file cannot be opened. *)
Theorem C32_unopenable {St} (handle : nat -> str -> St -> St * HErr) w f st st' e : lookup w f = NotExist \/ lookup w f = NotDir -> GetFileContentByLine handle w f st st' e -> st' = st /\ e = LOpen.
Proof. intros L. apply C32_open_error. unfold open_read. destruct L as [-> | ->]; reflexivity. Qed.
(** Lines after an overlong one are silently lost: nothing of such a file is shown, and there is no error. *)
Theorem C32_overlong_line_silently_ends {St} (handle : nat -> str -> St -> St * HErr) w f st st' e content l after :
  open_read w f = Some content -> content = l ++ 10%Z :: after -> ~ In 10%Z l -> 256 * 256 <= length l ->
  GetFileContentByLine handle w f st st' e -> st' = st /\ e = LNil.
Proof.
  intros O -> N L G. assert (T : shown (l ++ 10%Z :: after) []).
  { destruct (file_lines_exists (length after) after (le_n _)) as [ls H]. exists (l :: ls), []. split; [constructor; assumption|]. split; [apply rd_long; exact L|constructor]. }
  destruct (C32_lines handle w f st st' e _ [] O T G) as [[[] _]|[_ [-> ->]]]. auto.
Qed.
Example ex_shown : shown (lit "pw" ++ [13; 10]%Z ++ lit "user: bob" ++ [10; 10]%Z ++ lit "last") [lit "pw"; lit "user: bob"; []; lit "last"].
Proof.
  exists [lit "pw" ++ [13]%Z; lit "user: bob"; []; lit "last"], [lit "pw" ++ [13]%Z; lit "user: bob"; []; lit "last"]. split; [|split].
  - apply (fl_line (lit "pw" ++ [13]%Z) (lit "user: bob" ++ [10; 10]%Z ++ lit "last")); [cbn; intuition discriminate|]. apply (fl_line (lit "user: bob") ([10]%Z ++ lit "last")); [cbn; intuition discriminate|].
    apply (fl_line [] (lit "last")); [intros []|]. apply fl_last; [discriminate|cbn; intuition discriminate].
  - repeat (apply rd_line; [cbn [length lit map list_ascii_of_string app]; lia|]). constructor.
  - constructor; [left; reflexivity|]. repeat (constructor; [right; split; [reflexivity|]; intros a E; symmetry in E; apply (f_equal (@rev _)) in E; rewrite rev_app_distr in E; vm_compute in E; discriminate|]). constructor.
Qed.

(** ** C33 *)
(** SearchInFile returns exactly the matching lines, with number and text, in order, and nothing for files it cannot read; it has no error result. *)
Theorem C33_search_in_file w f p ms : SearchInFile w f (yes_no p) ms ->
  match open_read w f with
  | None => ms = []
  | Some content => exists texts, shown content texts /\ matching p texts ms
  end.
Proof.
  intros [e G]. destruct (open_read w f) as [content|] eqn:O.
  - destruct (shown_exists content) as [ts T]. exists ts. split; [exact T|]. destruct (C32_lines _ _ _ _ _ _ _ _ O T G) as [[B [-> _]]|[B [-> _]]]; [left; auto|right]. split; [exact B|]. apply search_all.
  - destruct (C32_open_error _ _ _ _ _ _ O G) as [-> _]. reflexivity.
Qed.
(** It always returns, and the result is determined. *)
Theorem C33_total w f p : exists! ms, SearchInFile w f (yes_no p) ms.
Proof.
  destruct (get_total (search_handler (yes_no p)) w f []) as [ms [e G]]. exists ms. split; [exists e; exact G|]. intros ms' H'.
  assert (H : SearchInFile w f (yes_no p) ms) by (exists e; exact G). apply C33_search_in_file in H. apply C33_search_in_file in H'. destruct (open_read w f) as [c|]; [|congruence].
  destruct H as [ts [T [[B M]|[B M]]]], H' as [ts' [T' [[B' M']|[B' M']]]]; rewrite (shown_unique _ _ _ T' T) in *; congruence || contradiction.
Qed.
(** A comparison that stops the search ends it at that line. *)
Theorem C33_stopping_comparison w f cmp ms content texts : open_read w f = Some content -> shown content texts -> ~ binary texts ->
  SearchInFile w f cmp ms ->
  exists seen, (exists after, texts = seen ++ after /\ (after = [] \/ exists t r, after = t :: r /\ (cmp t = CTerminate \/ cmp t = COther)))
    /\ (forall t, In t seen -> cmp t = CMatch \/ cmp t = CNil)
    /\ ms = filter (fun e => match cmp (snd e) with CMatch => true | _ => false end) (numbered 1 seen).
Proof.
  intros O T B [e G]. destruct (C32_lines _ _ _ _ _ _ _ _ O T G) as [[X _]|[_ [-> _]]]; [contradiction|]. clear.
  assert (K : forall texts n acc, exists seen, (exists after, texts = seen ++ after /\ (after = [] \/ exists t r, after = t :: r /\ (cmp t = CTerminate \/ cmp t = COther)))
    /\ (forall t, In t seen -> cmp t = CMatch \/ cmp t = CNil)
    /\ handle_all (search_handler cmp) n texts acc = acc ++ filter (fun e => match cmp (snd e) with CMatch => true | _ => false end) (numbered n seen)).
  { clear texts. induction texts as [|t ts IH]; intros n acc.
    - exists []. split; [exists []; auto|]. split; [intros t []|]. cbn. rewrite app_nil_r. reflexivity.
    - destruct (cmp t) eqn:E.
      + destruct (IH (S n) acc) as [seen [[after [-> A]] [H1 H2]]]. exists (t :: seen). split; [exists after; auto|]. split; [intros x [<-|I]; [right; exact E|apply H1; exact I]|].
        cbn [handle_all numbered filter snd]. unfold search_handler at 1. rewrite E. exact H2.
      + destruct (IH (S n) (acc ++ [(n, t)])) as [seen [[after [-> A]] [H1 H2]]]. exists (t :: seen). split; [exists after; auto|]. split; [intros x [<-|I]; [left; exact E|apply H1; exact I]|].
        cbn [handle_all numbered filter snd]. unfold search_handler at 1. rewrite E. rewrite H2, <- app_assoc. reflexivity.
      + exists []. split; [exists (t :: ts); split; [reflexivity|right; exists t, ts; auto]|]. split; [intros x []|]. cbn [handle_all numbered filter]. unfold search_handler. rewrite E, app_nil_r. reflexivity.
      + exists []. split; [exists (t :: ts); split; [reflexivity|right; exists t, ts; auto]|]. split; [intros x []|]. cbn [handle_all numbered filter]. unfold search_handler. rewrite E, app_nil_r. reflexivity. }
  apply (K texts 1 []).
Qed.

(** ** C34 *)
(** What the searches return for a path: the matching lines of the file of that name, none if it cannot be read. *)
Definition file_matches (w : World) (p : str -> bool) (f : str) (ms : list (nat * str)) : Prop :=
  match open_read w f with None => ms = [] | Some content => exists texts, shown content texts /\ matching p texts ms end.
(** One result per scanned file, with exactly its matching lines, whatever the iteration order of the map. *)
Theorem C34_search_covers_every_file w fs p res : search_files w fs p res ->
  Permutation (map fst res) (concat (map snd fs)) /\ forall f ms, In (f, ms) res -> file_matches w p f ms.
Proof.
  intros [order [[fs' [P ->]] F]]. split.
  - assert (E : map fst res = concat (map snd fs')). { clear P. induction F as [|f r l res [E _] F IH]; [reflexivity|]. cbn [map]. rewrite E, IH. reflexivity. }
    rewrite E. clear E F. induction P as [|x l l' P IH|x y l|l l' l'' P1 IH1 P2 IH2]; cbn [map concat].
    + constructor.
    + apply Permutation_app_head. exact IH.
    + rewrite !app_assoc. apply Permutation_app_tail. apply Permutation_app_comm.
    + eapply Permutation_trans; eassumption.
  - intros f ms I. apply In_nth_error in I. destruct I as [i I].
    assert (X : forall l res, Forall2 (fun f r => fst r = f /\ SearchInFile w f (yes_no p) (snd r)) l res -> forall i f ms, nth_error res i = Some (f, ms) -> SearchInFile w f (yes_no p) ms).
    { clear. induction 1 as [|f r l res [E S1] F IH]; intros i g ms H; [destruct i; discriminate|]. destruct i as [|i]; [cbn in H; injection H as ->; cbn [fst snd] in *; subst; exact S1|apply (IH i); exact H]. }
    apply C33_search_in_file. exact (X _ _ F i f ms I).
Qed.
(** The same for the three entry points; a pattern that does not compile is an error and searches nothing. *)
Theorem C34_compiled_search compile w fs query o : compiled_search compile w fs query o ->
  match compile query with
  | None => o = None
  | Some p => exists res, o = Some res /\ Permutation (map fst res) (concat (map snd fs)) /\ forall f ms, In (f, ms) res -> file_matches w p f ms
  end.
Proof.
  intros H. inversion H as [E|p res E S1]; subst; rewrite E; [reflexivity|]. exists res. split; [reflexivity|]. apply C34_search_covers_every_file. exact S1.
Qed.
Theorem C34_direct_search w fs query res : DirectSearch w fs query res ->
  Permutation (map fst res) (concat (map snd fs)) /\ forall f ms, In (f, ms) res ->
    match open_read w f with None => ms = [] | Some content => exists texts, shown content texts /\
      ((binary texts /\ ms = []) \/ (~ binary texts /\ forall n t, In (n, t) ms <-> t = query /\ nth_error texts (n - 1) = Some t /\ 1 <= n)) end.
Proof.
  intros H. apply C34_search_covers_every_file in H. destruct H as [P H]. split; [exact P|]. intros f ms I. apply H in I. unfold file_matches in I. destruct (open_read w f) as [c|]; [|exact I].
  destruct I as [ts [T [B|[B ->]]]]; exists ts; (split; [exact T|]); [left; exact B|right]. split; [exact B|]. intros n t. rewrite filter_In. cbn [snd]. rewrite eqs_iff.
  assert (K : forall ts k n t, In (n, t) (numbered k ts) <-> nth_error ts (n - k) = Some t /\ k <= n).
  { clear. induction ts as [|x ts IH]; intros k n t; cbn [numbered In].
    - split; [contradiction|]. intros [X _]. destruct (n - k); discriminate.
    - rewrite IH. destruct (Nat.eq_dec n k) as [->|Ne].
      + rewrite Nat.sub_diag. cbn [nth_error]. split; [intros [E|[_ L]]; [injection E as ->; auto|lia]|]. intros [E _]. injection E as ->. left. reflexivity.
      + split.
        * intros [E|[E L]]; [congruence|]. replace (n - k) with (S (n - S k)) by lia. cbn [nth_error]. split; [exact E|lia].
        * intros [E L]. right. replace (n - k) with (S (n - S k)) in E by lia. cbn [nth_error] in E. split; [exact E|lia]. }
  rewrite K. tauto.
Qed.
(** Searches of every store return. *)
Theorem C34_total w fs p : exists res, search_files w fs p res.
Proof.
  assert (X : forall order, exists res, Forall2 (fun f r => fst r = f /\ SearchInFile w f (yes_no p) (snd r)) order res).
  { induction order as [|f order [res IH]]; [exists []; constructor|]. destruct (C33_total w f p) as [ms [M _]]. exists ((f, ms) :: res). constructor; [split; [reflexivity|exact M]|exact IH]. }
  destruct (X (concat (map snd fs))) as [res F]. exists res, (concat (map snd fs)). split; [exists fs; auto|exact F].
Qed.
(** The claim that the store's files are searched fails: the names are opened relative to the working directory, not to the root. *)
Theorem C34_searches_wrong_directory_refuted : exists w root es fs, lookup w root = Found (Dir es) /\ wfs es /\ Clean root = root /\ Scan w root = Scanned fs /\
  (exists cat name content, entry es cat name /\ lookup w (Join root (rel cat name)) = Found (File content) /\ content = lit "pw") /\
  forall res, DirectSearch w fs (lit "pw") res -> forall f ms, In (f, ms) res -> ms = [].
Proof.
  exists world1, (lit "/vault"), vault, [(lit "bank", [lit "bank/abn"]); (lit "sites", [lit "sites/github"])].
  split; [vm_compute; reflexivity|]. split; [exact vault_wfs|]. split; [vm_compute; reflexivity|]. split; [exact ex_scan|]. split.
  - exists (lit "bank"), (lit "abn"), (lit "pw"). split; [|split; [vm_compute; reflexivity|reflexivity]]. split; [vm_compute; tauto|]. split; [discriminate|]. exists [(lit "abn", File (lit "pw"))], (lit "pw"). split; left; reflexivity.
  - intros res D f ms I. apply C34_search_covers_every_file in D. destruct D as [P D]. assert (If : In f [lit "bank/abn"; lit "sites/github"]).
    { apply (Permutation_in _ P). change f with (fst (f, ms)). apply in_map. exact I. }
    apply D in I. unfold file_matches in I. destruct If as [<-|[<-|[]]]; vm_compute in I; exact I.
Qed.

Print Assumptions C31_scan_lists_exactly_the_entries.
Print Assumptions C31_root_called_git.
Print Assumptions C31_missing_root.
Print Assumptions C31_unclean_root_refuted.
Print Assumptions C31_dot_root_refuted.
Print Assumptions C31_unclean_root_misnames.
Print Assumptions C32_lines.
Print Assumptions C32_every_line_once.
Print Assumptions C32_total.
Print Assumptions C32_open_error.
Print Assumptions C32_directory.
Print Assumptions C32_unopenable.
Print Assumptions C32_overlong_line_silently_ends.
Print Assumptions C33_search_in_file.
Print Assumptions C33_total.
Print Assumptions C33_stopping_comparison.
Print Assumptions C34_search_covers_every_file.
Print Assumptions C34_compiled_search.
Print Assumptions C34_direct_search.
Print Assumptions C34_total.
Print Assumptions C34_searches_wrong_directory_refuted.
