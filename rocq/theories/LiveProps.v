(** * C74: Scan on a file system with links and permissions, while other processes change it. *)
From Coq Require Import String.
From Coq Require Import ZArith Arith List Bool Lia Sorting.
From Verif Require Import GoStr FsModel CmModel RepoModel RepoSpec FsProofs RepoScan RepoProps LiveModel LiveProofs LiveTree.
Import ListNotations.
Open Scope nat_scope.

(** ** Specification *)
(** What any system answers when a directory is read: distinct names other than "", "." and "..", without '/', which Walk sorts. *)
Definition sane (W : nat -> Snap) : Prop := forall t p names, readdir (W t) p = Some names -> StronglySorted (fun a b => str_lt a b = true) names /\ Forall normal names.
(** The path of something below the root. *)
Definition at_root (root rest : str) : str := root ++ lit "/" ++ rest.
(** At some moment from t to t'. *)
Definition during (t t' : nat) (P : nat -> Prop) : Prop := exists u, t <= u <= t' /\ P u.
Definition throughout (t t' : nat) (P : nat -> Prop) : Prop := forall u, t <= u <= t' -> P u.
Definition listed (fs : Files) (cat f : str) : Prop := exists l, In (cat, l) fs /\ In f l.
(** What is listed of a directory: files and links, directly in a category directory. *)
Definition lentry (es : list (str * LNode)) (cat name : str) : Prop :=
  In cat (map lit ["people"; "email"; "phone"; "sites"; "devices"; "bank"]%string) /\ name <> lit ".DS_Store" /\
  exists r x sub nd, In (cat, LDir r x sub) es /\ In (name, nd) sub /\ ((exists c, nd = LFile c) \/ exists t, nd = LLink t).
(** What ends the process, met under this name: a directory that cannot be listed; or, unless it is called .git, one that holds something and cannot be
    searched, or that holds such a thing. *)
Inductive kills : str -> LNode -> Prop :=
  | k_list name x es : kills name (LDir false x es)
  | k_search name r es : name <> lit ".git" -> es <> [] -> kills name (LDir r false es)
  | k_below name r x es nm nd : name <> lit ".git" -> In (nm, nd) es -> kills nm nd -> kills name (LDir r x es).
Lemma kills_fails nd : forall name, kills name nd <-> fails name nd.
Proof.
  intros name. split.
  - intros H. induction H as [name x es|name r es G E|name r x es nm nd G I K IH]; [constructor|destruct r; [apply f_search; assumption|constructor]|]. destruct r; [|constructor]. destruct x; [eapply f_below; eauto|]. apply f_search; [exact G|]. intros ->. contradiction.
  - intros H. induction H; [constructor|apply k_search; assumption|eapply k_below; eauto].
Qed.

Lemma path_two root cat name : path_of root [cat; name] = at_root root (rel cat name).
Proof. reflexivity. Qed.
Lemma path_one root cat : path_of root [cat] = at_root root cat.
Proof. reflexivity. Qed.

(** ** Any history *)
Section History.
  Variables (W : nat -> Snap) (root : str) (t t' : nat).
  Hypothesis CR : clean_root root.
  Hypothesis Sn : sane W.
  Lemma scan_groups fs : ScanLive W root t (Scanned fs) t' ->
    (Base root = lit ".git" /\ fs = []) \/
    (Base root <> lit ".git" /\ exists u names gs, t <= u <= t' /\ readdir (W u) root = Some names /\ groups W root t t' names gs /\ fs = appends [] (store_list (tree_of gs))).
  Proof.
    intros H. inversion H as [| |u v d r ? L1 St L2 Ls Wk E]; subst. destruct r as [fs'| |]; try discriminate. injection E as ->. destruct d.
    - inversion Wk as [| | |? u' ? ? names L3 R G|? u' ? ? ? names ? L3 R G En]; subst; [left; split; [exact G|reflexivity]|]. right. split; [exact G|]. destruct (Sn _ _ _ R) as [_ Fn]. destruct (top W root CR Sn names _ _ _ _ Fn En) as [gs [Gs E]].
      pose proof (proj2 (times W root) _ _ _ _ _ _ En). exists u', names, gs. split; [lia|]. split; [exact R|]. split; [|exact E]. eapply groups_wider; [| |exact Gs]; lia.
    - inversion Wk as [? ? ? ? V| | | |]; subst. unfold visit_file in V. replace (length root <? length root + 1) with true in V by (symmetry; apply Nat.ltb_lt; lia). discriminate.
  Qed.
  Lemma groups_in names gs : groups W root t t' names gs -> forall c ks, In (c, ks) gs ->
    In c categories /\ during t t' (fun u => lstat (W u) (path_of root [c]) = Some true) /\
    exists names', during t t' (fun u => readdir (W u) (path_of root [c]) = Some names') /\ picks W root t t' c names' ks.
  Proof.
    induction 1 as [|c u v names' ks names gs Hu Hv Ic L R P G IH|c u names gs Hu L G IH]; intros c1 ks1 I; [contradiction| |apply IH; exact I]. destruct I as [I|I]; [injection I as <- <-|apply IH; exact I].
    split; [exact Ic|]. split; [exists u; auto|]. exists names'. split; [exists v; auto|exact P].
  Qed.
  Lemma picks_in c names ks : picks W root t t' c names ks -> forall k, In k ks -> In k names /\ k <> lit ".DS_Store" /\ during t t' (fun u => lstat (W u) (path_of root [c; k]) = Some false).
  Proof.
    induction 1 as [|nm u names ks Hu L D P IH|nm u names ks Hu L P IH]; intros k I; [contradiction| |].
    - destruct I as [<-|I]; [split; [left; reflexivity|split; [exact D|exists u; auto]]|]. destruct (IH _ I) as [A B]. split; [right; exact A|exact B].
    - destruct (IH _ I) as [A B]. split; [right; exact A|exact B].
  Qed.
  Lemma groups_has names gs c : groups W root t t' names gs -> In c names -> In c categories -> throughout t t' (fun u => lstat (W u) (path_of root [c]) <> Some false) -> exists ks, In (c, ks) gs.
  Proof.
    intros G I Ic Th. induction G as [|c' u v names' ks names gs Hu Hv Ic' L R P G IH|c' u names gs Hu L G IH]; [contradiction| |].
    - destruct I as [->|I]; [exists ks; left; reflexivity|]. destruct (IH I) as [k J]. exists k. right. exact J.
    - destruct I as [->|I]; [|exact (IH I)]. exfalso. destruct L as [L|L]; [exact (Th u Hu L)|contradiction].
  Qed.
  Lemma picks_has c names ks k : picks W root t t' c names ks -> In k names -> k <> lit ".DS_Store" -> throughout t t' (fun u => lstat (W u) (path_of root [c; k]) <> Some true) -> In k ks.
  Proof.
    intros P I D Th. induction P as [|nm u names ks Hu L D' P IH|nm u names ks Hu L P IH]; [contradiction| |].
    - destruct I as [->|I]; [left; reflexivity|right; exact (IH I)].
    - destruct I as [->|I]; [|exact (IH I)]. exfalso. destruct L as [L|L]; [exact (Th u Hu L)|contradiction].
  Qed.
  Lemma tree_entry gs cat name : (forall c ks, In (c, ks) gs -> ~ In (lit ".DS_Store") ks) -> entry (tree_of gs) cat name <-> In cat categories /\ exists ks, In (cat, ks) gs /\ In name ks.
  Proof.
    intros ND. unfold entry, tree_of. split.
    - intros [Ic [D [sub [c [I1 I2]]]]]. split; [exact Ic|]. apply in_map_iff in I1. destruct I1 as [[c1 ks] [E I]]. cbn [fst snd] in E. injection E as <- <-. exists ks. split; [exact I|]. apply in_map_iff in I2. destruct I2 as [k [E J]]. injection E as <- <-. exact J.
    - intros [Ic [ks [I J]]]. split; [exact Ic|]. split; [intros ->; exact (ND _ _ I J)|]. exists (map (fun k => (k, File [])) ks), []. split; [apply in_map_iff; exists (cat, ks); auto|apply in_map_iff; exists name; auto].
  Qed.
  Lemma groups_nods names gs : groups W root t t' names gs -> forall c ks, In (c, ks) gs -> ~ In (lit ".DS_Store") ks.
  Proof. intros G c ks I J. destruct (groups_in _ _ G _ _ I) as [_ [_ [ns [_ P]]]]. destruct (picks_in _ _ _ P _ J) as [_ [D _]]. apply D. reflexivity. Qed.
End History.

(** Whatever other processes do meanwhile: all that a finished Scan lists was, at moments during the Scan, a non-directory and a name read from a category directory. *)
Theorem C74_listed_was_there W root t t' fs cat f :
  Clean root = root -> root <> lit "." -> root <> lit "/" -> sane W -> ScanLive W root t (Scanned fs) t' -> listed fs cat f ->
  In cat (map lit ["people"; "email"; "phone"; "sites"; "devices"; "bank"]%string) /\
  exists name, f = rel cat name /\ normal name /\ name <> lit ".DS_Store"
    /\ during t t' (fun u => lstat (W u) (at_root root cat) = Some true)
    /\ during t t' (fun u => exists names, readdir (W u) (at_root root cat) = Some names /\ In name names)
    /\ during t t' (fun u => lstat (W u) (at_root root f) = Some false).
Proof.
  intros C1 C2 C3 Sn H Ls. assert (CR : clean_root root) by (split; auto). destruct (scan_groups W root t t' CR Sn fs H) as [[_ ->]|[_ [u [names [gs [Hu [R [G ->]]]]]]]]; [destruct Ls as [l [[] _]]|].
  destruct (Sn _ _ _ R) as [So Fn]. destruct (store_facts (tree_of gs) (tree_wfs W root Sn _ _ _ _ G So Fn)) as [_ [_ [_ X]]]. apply X in Ls. destruct Ls as [name [En ->]]. apply (tree_entry gs cat name (groups_nods W root t t' names gs G)) in En.
  destruct En as [Ic [ks [I J]]]. split; [exact Ic|]. destruct (groups_in W root t t' _ _ G _ _ I) as [_ [Dl [names' [[v [Hv Rv]] P]]]]. destruct (picks_in W root t t' _ _ _ P _ J) as [In' [D Df]].
  exists name. split; [reflexivity|]. destruct (Sn _ _ _ Rv) as [_ Fn']. rewrite Forall_forall in Fn'. split; [apply Fn'; exact In'|]. split; [exact D|]. split; [exact Dl|]. split; [exists v; split; [exact Hv|exists names'; auto]|exact Df].
Qed.
(** An entry that is there throughout the Scan is listed, whatever happens to the rest of the store, if the Scan comes to an end at all. *)
Theorem C74_constant_entry_listed W root t t' fs cat name :
  Clean root = root -> root <> lit "." -> root <> lit "/" -> Base root <> lit ".git" -> sane W -> ScanLive W root t (Scanned fs) t' ->
  In cat (map lit ["people"; "email"; "phone"; "sites"; "devices"; "bank"]%string) -> name <> lit ".DS_Store" ->
  throughout t t' (fun u => (exists names, readdir (W u) root = Some names /\ In cat names) /\ lstat (W u) (at_root root cat) = Some true
    /\ (exists names, readdir (W u) (at_root root cat) = Some names /\ In name names) /\ lstat (W u) (at_root root (rel cat name)) = Some false) ->
  listed fs cat (rel cat name).
Proof.
  intros C1 C2 C3 B Sn H Ic D Th. assert (CR : clean_root root) by (split; auto). destruct (scan_groups W root t t' CR Sn fs H) as [[E _]|[_ [u [names [gs [Hu [R [G ->]]]]]]]]; [contradiction|].
  destruct (Sn _ _ _ R) as [So Fn]. destruct (store_facts (tree_of gs) (tree_wfs W root Sn _ _ _ _ G So Fn)) as [_ [_ [_ X]]]. apply X. exists name. split; [|reflexivity]. apply (tree_entry gs cat name (groups_nods W root t t' names gs G)). split; [exact Ic|].
  destruct (Th u Hu) as [[names0 [R0 I0]] _]. rewrite R in R0. injection R0 as <-.
  destruct (groups_has W root t t' names gs cat G I0 Ic) as [ks I]; [intros v Hv E; destruct (Th v Hv) as [_ [E' _]]; change (path_of root [cat]) with (at_root root cat) in E; congruence|].
  exists ks. split; [exact I|]. destruct (groups_in W root t t' _ _ G _ _ I) as [_ [_ [names' [[v [Hv Rv]] P]]]]. apply (picks_has W root t t' cat names' ks name P); [|exact D|].
  - destruct (Th v Hv) as [_ [_ [[names1 [R1 I1]] _]]]. change (path_of root [cat]) with (at_root root cat) in Rv. rewrite Rv in R1. injection R1 as <-. exact I1.
  - intros z Hz E. destruct (Th z Hz) as [_ [_ [_ E']]]. change (path_of root [cat; name]) with (at_root root (rel cat name)) in E. congruence.
Qed.
(** Nothing is listed twice, categories are not empty, and each is in lexical order. *)
Theorem C74_each_once W root t t' fs :
  Clean root = root -> root <> lit "." -> root <> lit "/" -> sane W -> ScanLive W root t (Scanned fs) t' ->
  NoDup (map fst fs) /\ NoDup (concat (map snd fs)) /\ (forall cat l, In (cat, l) fs -> l <> [] /\ StronglySorted (fun a b => str_lt a b = true) l).
Proof.
  intros C1 C2 C3 Sn H. assert (CR : clean_root root) by (split; auto). destruct (scan_groups W root t t' CR Sn fs H) as [[_ ->]|[_ [u [names [gs [Hu [R [G ->]]]]]]]].
  - split; [constructor|]. split; [constructor|]. intros cat l [].
  - destruct (Sn _ _ _ R) as [So Fn]. destruct (store_facts (tree_of gs) (tree_wfs W root Sn _ _ _ _ G So Fn)) as [A [Bc [Cc _]]]. auto.
Qed.
(** How it ends otherwise: the error, only if the root was missing; the death of the process, only if a call at or below the root was refused (as
    when something is removed between the listing and the look at it); the panic, only if the root was something else than a directory. *)
Theorem C74_ends W root t t' res :
  Clean root = root -> root <> lit "." -> root <> lit "/" -> sane W -> ScanLive W root t res t' ->
  t <= t' /\
  (res = RootMissing -> during t t' (fun u => stat (W u) root = Missing)) /\
  (res = Fatal -> during t t' (fun u => exists p, (p = root \/ exists rest, p = at_root root rest) /\ (lstat (W u) p = None \/ readdir (W u) p = None))) /\
  (res = ScanPanic -> during t t' (fun u => lstat (W u) root = Some false)).
Proof.
  intros C1 C2 C3 Sn H. assert (CR : clean_root root) by (split; auto). inversion H as [u L St|u v L1 St L2 Ls|u v d r t1 L1 St L2 Ls Wk]; subst.
  - split; [exact L|]. split; [intros _; exists t'; auto|]. split; discriminate.
  - split; [lia|]. split; [discriminate|]. split; [|discriminate]. intros _. exists t'. split; [lia|]. exists root. auto.
  - pose proof (proj1 (times W root) _ _ _ _ _ _ Wk). split; [lia|]. split; [destruct r; discriminate|]. destruct d.
    + destruct (proj1 (outcomes W root CR Sn) _ _ _ _ _ _ Wk [] eq_refl ltac:(constructor) ltac:(reflexivity)) as [O1 O2]. split.
      * intros E. destruct r; try discriminate. destruct (O2 eq_refl) as [u' [ks [Hu' Hr]]]. exists u'. split; [lia|]. cbn [app] in Hr. exists (path_of root ks). split; [|exact Hr]. destruct ks; [left; reflexivity|right; eexists; reflexivity].
      * intros E. destruct r; try discriminate. contradiction.
    + assert (r = WPanic) as -> by (inversion Wk as [? ? ? ? V| | | |]; subst; [|reflexivity]; unfold visit_file in V; replace (length root <? length root + 1) with true in V by (symmetry; apply Nat.ltb_lt; lia); discriminate).
      split; [discriminate|]. intros _. exists v. split; [lia|exact Ls].
Qed.

(** ** A file system at rest *)
Section Still.
  Variables (w : LWorld) (root : str).
  Hypothesis CR : clean_root root.
  Lemma still_dir nd : lwf nd -> is_dir nd = true -> llookup w false root = LFound nd ->
    (forall t, ScanLive (still w) root t (scan_res (wres [] (lfound [] (Base root) nd))) t) /\
    (forall t res t', ScanLive (still w) root t res t' -> res = scan_res (wres [] (lfound [] (Base root) nd))).
  Proof.
    intros Wf D Lk. destruct (tree_walk w root CR nd Wf [] [] ltac:(constructor) ltac:(intros _; exact D) Lk) as [T1 T2]. cbn [path_of] in T1, T2. rewrite D in T1, T2. destruct nd as [| |r x es]; try discriminate.
    pose proof (llookup_dir w root CR [] r x es true ltac:(constructor) Lk) as L2. cbn [path_of] in L2.
    assert (St : forall u, stat (still w u) root = Exists) by (intros u; cbn [still snap stat]; rewrite L2; reflexivity).
    assert (Ls : forall u, lstat (still w u) root = Some true) by (intros u; cbn [still snap lstat]; rewrite Lk; reflexivity). split.
    - intros t. eapply sl_walk with (u := t) (v := t); [apply le_n|rewrite St; discriminate|apply le_n|apply Ls|apply T1].
    - intros t res t' H. inversion H as [u L S1|u v L1 S1 L3 Ls1|u v d r0 t1 L1 S1 L3 Ls1 Wk]; subst.
      + rewrite St in S1. discriminate.
      + rewrite Ls in Ls1. discriminate.
      + rewrite Ls in Ls1. injection Ls1 as <-. rewrite (T2 _ _ _ Wk). reflexivity.
  Qed.
  Lemma still_notdir : lstat (snap w) root = Some false ->
    forall t res t', ScanLive (still w) root t res t' <-> t <= t' /\ res = match stat (snap w) root with Missing => RootMissing | _ => ScanPanic end.
  Proof.
    intros Lk t res t'.
    assert (V : forall fs, visit_file (length root + 1) root (Base root) fs = None) by (intros fs; unfold visit_file; replace (length root <? length root + 1) with true by (symmetry; apply Nat.ltb_lt; lia); reflexivity). split.
    - intros H. inversion H as [u L S1|u v L1 S1 L3 Ls1|u v d r0 t1 L1 S1 L3 Ls1 Wk]; subst.
      + unfold still in S1. rewrite S1. auto.
      + unfold still in Ls1. rewrite Lk in Ls1. discriminate.
      + unfold still in Ls1. rewrite Lk in Ls1. injection Ls1 as <-. inversion Wk as [? ? ? ? V'|? ? ? V'| | |]; subst; [rewrite V in V'; discriminate|]. unfold still in S1. split; [lia|]. destruct (stat (snap w) root); [reflexivity|contradiction|reflexivity].
    - intros [L ->]. destruct (stat (snap w) root) eqn:Sr.
      + apply (sl_walk (still w) root t t' t' false WPanic t'); [exact L|unfold still; rewrite Sr; discriminate|apply le_n|exact Lk|apply wk_panic, V].
      + apply sl_missing; [exact L|exact Sr].
      + apply (sl_walk (still w) root t t' t' false WPanic t'); [exact L|unfold still; rewrite Sr; discriminate|apply le_n|exact Lk|apply wk_panic, V].
  Qed.
End Still.

(** A store reached through a symbolic link is never scanned: if the link leads somewhere the program panics, if not the root is missing. *)
Theorem C74_root_link w root target :
  llookup w false root = LFound (LLink target) ->
  forall t res t', ScanLive (still w) root t res t' <-> t <= t' /\ res = match llookup w true root with LMissing => RootMissing | _ => ScanPanic end.
Proof.
  intros Lk t res t'. rewrite (still_notdir w root); [|cbn [snap lstat]; rewrite Lk; reflexivity]. cbn [snap stat]. destruct (llookup w true root); reflexivity.
Qed.
(** One directory anywhere below the root that cannot be listed ends the process, .git included; so does one that holds something and cannot be searched. *)
Theorem C74_dies_iff w root r x es t :
  Clean root = root -> root <> lit "." -> root <> lit "/" -> llookup w false root = LFound (LDir r x es) -> lwfs es ->
  (exists t', ScanLive (still w) root t Fatal t') <-> kills (Base root) (LDir r x es).
Proof.
  intros C1 C2 C3 Lk Wf. destruct (still_dir w root (conj C1 (conj C2 C3)) (LDir r x es) (lwf_dir _ _ _ Wf) eq_refl Lk) as [H1 H2]. rewrite kills_fails, <- (lfound_fails (LDir r x es) []). split.
  - intros [t' H]. apply H2 in H. destruct (lfound [] (Base root) (LDir r x es)); [discriminate|reflexivity].
  - intros E. exists t. specialize (H1 t). rewrite E in H1. exact H1.
Qed.
(** Otherwise Scan has one result: exactly the files and links, wherever these lead, directly in category directories; a category that is itself a link is ignored. *)
Theorem C74_lists w root r x es :
  Clean root = root -> root <> lit "." -> root <> lit "/" -> Base root <> lit ".git" -> llookup w false root = LFound (LDir r x es) -> lwfs es -> ~ kills (Base root) (LDir r x es) ->
  exists fs, (forall t, ScanLive (still w) root t (Scanned fs) t) /\ (forall t res t', ScanLive (still w) root t res t' -> res = Scanned fs)
    /\ NoDup (map fst fs) /\ NoDup (concat (map snd fs))
    /\ (forall cat l, In (cat, l) fs -> l <> [] /\ StronglySorted (fun a b => str_lt a b = true) l)
    /\ (forall cat f, listed fs cat f <-> exists name, lentry es cat name /\ f = rel cat name).
Proof.
  intros C1 C2 C3 B Lk Wf K. destruct (still_dir w root (conj C1 (conj C2 C3)) (LDir r x es) (lwf_dir _ _ _ Wf) eq_refl Lk) as [H1 H2].
  destruct (lfound [] (Base root) (LDir r x es)) as [l|] eqn:E; [|exfalso; apply K; apply kills_fails, (lfound_fails _ []); exact E]. cbn [wres scan_res] in H1, H2. exists (appends [] l). split; [exact H1|]. split; [exact H2|].
  apply lfound_erase in E. cbn [erase] in E. fold (erases es) in E. rewrite found_dir, eqs_false in E by exact B. pose proof (lwfs_erase es Wf) as We. rewrite founds_root in E by exact We. subst l. destruct (store_facts (erases es) We) as [F1 [F2 [F3 F4]]].
  split; [exact F1|]. split; [exact F2|]. split; [exact F3|]. intros cat f. unfold listed. rewrite F4. split; intros [name [En ->]]; exists name; (split; [|reflexivity]).
  - destruct En as [Ic [D [sub [c [I1 I2]]]]]. split; [exact Ic|]. split; [exact D|]. apply in_map_iff in I1. destruct I1 as [[c1 nd] [E1 J1]]. cbn [fst snd] in E1. injection E1 as <- E1. destruct nd as [| |r1 x1 s1]; try discriminate. cbn [erase] in E1. injection E1 as <-.
    apply in_map_iff in I2. destruct I2 as [[n1 nd1] [E2 J2]]. cbn [fst snd] in E2. injection E2 as <- E2. exists r1, x1, s1, nd1. split; [exact J1|]. split; [exact J2|]. destruct nd1; [left; eauto|right; eauto|discriminate].
  - destruct En as [Ic [D [r1 [x1 [sub [nd [I1 [I2 Hn]]]]]]]]. split; [exact Ic|]. split; [exact D|]. exists (erases sub). assert (exists c, erase nd = File c) as [c Ec] by (destruct Hn as [[c ->]|[t ->]]; eexists; reflexivity). exists c.
    split; [apply in_map_iff; exists (cat, LDir r1 x1 sub); auto|apply in_map_iff; exists (name, nd); cbn [fst snd]; rewrite Ec; auto].
Qed.
(** Without links and with every permission it is the Scan of C31. *)
Fixpoint embed (nd : Node) : LNode := match nd with File c => LFile c | Dir es => LDir true true (map (fun e => (fst e, embed (snd e))) es) end.
Definition plain (w : World) : LWorld := {| ltop := embed (Dir (tree w)); lcwd := cwd w |}.
Lemma lchild_embed es c : lchild (map (fun e => (fst e, embed (snd e))) es) c = option_map embed (child es c).
Proof. induction es as [|[n x] es IH]; [reflexivity|]. cbn [map lchild child fst snd]. destruct (str_dec c n); [reflexivity|exact IH]. Qed.
Lemma lresolve_embed top k b : forall cs anc cur, lresolve top k (map embed anc) (embed cur) cs b = match resolve anc cur cs with Found nd => LFound (embed nd) | NotExist => LMissing | NotDir => LError end.
Proof.
  induction cs as [|c cs IH]; intros anc cur; rewrite lresolve_unfold; [reflexivity|]. cbn [resolve]. destruct cur as [c0|es]; [reflexivity|]. cbn [embed]. destruct (eqs c []) eqn:E1; cbn [orb].
  - apply (IH anc (Dir es)).
  - cbn [negb]. destruct (eqs c (lit ".")); [apply (IH anc (Dir es))|]. destruct (eqs c (lit "..")).
    + destruct anc as [|p anc]; cbn [map]; [apply (IH [] (Dir es))|apply IH].
    + rewrite lchild_embed. destruct (child es c) as [y|]; cbn [option_map]; [|reflexivity]. pose proof (IH (Dir es :: anc) y) as X. cbn [map embed] in X. destruct y; cbn [embed] in *; exact X.
Qed.
Lemma llookup_embed w b p : llookup (plain w) b p = match lookup w p with Found nd => LFound (embed nd) | NotExist => LMissing | NotDir => LError end.
Proof. unfold llookup, lookup. destruct p as [|z p]; [reflexivity|]. cbn [plain ltop lcwd]. exact (lresolve_embed (embed (Dir (tree w))) 40 b ((if rooted (z :: p) then [] else cwd w) ++ comps (z :: p)) [] (Dir (tree w))). Qed.
Lemma embed_lwf nd : wf nd -> lwf (embed nd).
Proof.
  induction nd as [c|es IH] using node_ind2; intros Wf; [constructor|]. cbn [embed]. constructor. inversion Wf as [|? We]; subst. clear Wf. induction IH as [|[nm y] es Hy F IHe]; [constructor|]. inversion We as [|? ? ? Hn Wy We' Hs]; subst.
  cbn [map fst snd]. constructor; [exact Hn|apply Hy; exact Wy|apply IHe; exact We'|]. rewrite Forall_map. exact Hs.
Qed.
Lemma erase_embed nd : erase (embed nd) = nd.
Proof.
  induction nd as [c|es IH] using node_ind2; [reflexivity|]. cbn [embed erase]. f_equal. rewrite map_map. cbn [fst snd]. induction IH as [|[nm y] es Hy F IHe]; [reflexivity|]. cbn [map fst snd]. cbn [snd] in Hy. rewrite Hy, IHe. reflexivity.
Qed.
Lemma embed_lives nd : forall name, ~ fails name (embed nd).
Proof.
  induction nd as [c|es IH] using node_ind2; intros name H; inversion H as [| |? ? nm nd Gn I Fl]; subst. apply in_map_iff in I. destruct I as [[n y] [E J]]. injection E as <- <-. rewrite Forall_forall in IH. exact (IH _ J _ Fl).
Qed.
Lemma child_wf es c nd : wfs es -> child es c = Some nd -> wf nd.
Proof. induction es as [|[n x] es IH]; intros Wf H; [discriminate|]. inversion Wf; subst. cbn [child] in H. destruct (str_dec c n); [injection H as <-; assumption|auto]. Qed.
Lemma resolve_wf : forall cs anc cur nd, Forall wf anc -> wf cur -> resolve anc cur cs = Found nd -> wf nd.
Proof.
  induction cs as [|c cs IH]; intros anc cur nd Fa Wc H; cbn [resolve] in H; [injection H as <-; exact Wc|]. destruct cur as [|es]; [discriminate|]. destruct (eqs c [] || eqs c (lit ".")); [exact (IH _ _ _ Fa Wc H)|]. destruct (eqs c (lit "..")).
  - destruct anc as [|p anc]; [exact (IH _ _ _ Fa Wc H)|]. inversion Fa; subst. eapply IH; [| |exact H]; assumption.
  - destruct (child es c) as [y|] eqn:E; [|discriminate]. inversion Wc; subst. eapply IH; [|eapply child_wf; eassumption|exact H]. constructor; assumption.
Qed.
Lemma lookup_wf w p nd : wfs (tree w) -> lookup w p = Found nd -> wf nd.
Proof. intros Wf. unfold lookup. destruct p as [|z p]; [discriminate|]. intros H. eapply resolve_wf; [| |exact H]; [constructor|constructor; exact Wf]. Qed.
Theorem C74_plain w root :
  Clean root = root -> root <> lit "." -> root <> lit "/" -> wfs (tree w) ->
  forall t, ScanLive (still (plain w)) root t (Scan w root) t /\ forall res t', ScanLive (still (plain w)) root t res t' -> res = Scan w root.
Proof.
  intros C1 C2 C3 Wf t. assert (CR : clean_root root) by (split; auto). pose proof (llookup_embed w false root) as Lf. pose proof (llookup_embed w true root) as Lt. unfold Scan. destruct (lookup w root) as [nd| |] eqn:L.
  - destruct nd as [c|es].
    + cbn [embed] in Lf, Lt. assert (Ls : lstat (snap (plain w)) root = Some false) by (cbn [snap lstat]; rewrite Lf; reflexivity).
      assert (V : walk (length root + 1) root (Base root) (File c) [] = None) by (cbn [walk]; unfold visit_file; replace (length root <? length root + 1) with true by (symmetry; apply Nat.ltb_lt; lia); reflexivity).
      rewrite V. split.
      * apply (still_notdir _ _ Ls). split; [apply le_n|]. cbn [snap stat]. rewrite Lt. reflexivity.
      * intros res t' H. apply (still_notdir _ _ Ls) in H. destruct H as [_ ->]. cbn [snap stat]. rewrite Lt. reflexivity.
    + assert (We : wfs es) by (pose proof (lookup_wf w root _ Wf L) as X; inversion X; assumption).
      assert (Wd : wf (Dir es)) by (constructor; exact We). destruct (still_dir (plain w) root CR (embed (Dir es)) (embed_lwf _ Wd) eq_refl Lf) as [H1 H2].
      pose proof (walk_found root CR (Dir es) Wd [] (Base root) [] ltac:(constructor) ltac:(intros _; exact I)) as Wk. cbn [path_of] in Wk. rewrite Wk. clear Wk.
      destruct (lfound [] (Base root) (embed (Dir es))) as [l|] eqn:E; [|exfalso; apply (lfound_fails _ []) in E; exact (embed_lives _ _ E)].
      apply lfound_erase in E. rewrite erase_embed in E. subst l. cbn [wres scan_res] in H1, H2. split; [apply H1|]. intros res t' H. exact (H2 _ _ _ H).
  - split.
    + apply sl_missing; [apply le_n|]. unfold still. cbn [snap stat]. rewrite Lt. reflexivity.
    + intros res t' H. inversion H as [u L0 S1|u v L1 S1 L3 Ls1|u v d r0 t1 L1 S1 L3 Ls1 Wk]; subst; [reflexivity| |]; exfalso; apply S1; unfold still; cbn [snap stat]; rewrite Lt; reflexivity.
  - split.
    + apply (sl_error _ _ _ t t); [apply le_n| |apply le_n|]; unfold still; cbn [snap stat lstat]; [rewrite Lt; discriminate|rewrite Lf; reflexivity].
    + intros res t' H. inversion H as [u L0 S1|u v L1 S1 L3 Ls1|u v d r0 t1 L1 S1 L3 Ls1 Wk]; subst; [|reflexivity|]; exfalso.
      * unfold still in S1. cbn [snap stat] in S1. rewrite Lt in S1. discriminate.
      * unfold still in Ls1. cbn [snap lstat] in Ls1. rewrite Lf in Ls1. discriminate.
Qed.

(** ** Histories of file systems *)
(** The answers of a file system that changes are sane, whatever the changes. *)
Definition history (ws : nat -> LWorld) : nat -> Snap := fun t => snap (ws t).
Lemma lchild_lwf es c nd : lwfs es -> lchild es c = Some nd -> lwf nd.
Proof. induction es as [|[n x] es IH]; intros Wf H; [discriminate|]. inversion Wf; subst. cbn [lchild] in H. destruct (str_dec c n); [injection H as <-; assumption|auto]. Qed.
Lemma lresolve_lwf top k b : lwf top -> forall cs anc cur nd, Forall lwf anc -> lwf cur -> lresolve top k anc cur cs b = LFound nd -> lwf nd.
Proof.
  intros Wt. induction k as [|k IHk]; induction cs as [|c cs IH]; intros anc cur nd Fa Wc H; rewrite lresolve_unfold in H; [injection H as <-; exact Wc| |injection H as <-; exact Wc|]; (destruct cur as [| |r x es]; try discriminate);
    (destruct (eqs c []); [exact (IH _ _ _ Fa Wc H)|]; destruct (negb x); [discriminate|]; destruct (eqs c (lit ".")); [exact (IH _ _ _ Fa Wc H)|]; destruct (eqs c (lit ".."));
     [destruct anc as [|p anc]; [exact (IH _ _ _ Fa Wc H)|inversion Fa; subst; eapply IH; [| |exact H]; assumption]|]; destruct (lchild es c) as [y|] eqn:E; [|discriminate];
     assert (Wy : lwf y) by (inversion Wc; subst; eapply lchild_lwf; eassumption)).
  - destruct y as [c0|tg|r0 x0 es0].
    + refine (IH _ _ _ _ Wy H); constructor; assumption.
    + destruct (match cs with [] => negb b | _ => false end); [injection H as <-; constructor|discriminate].
    + refine (IH _ _ _ _ Wy H); constructor; assumption.
  - destruct y as [c0|tg|r0 x0 es0].
    + refine (IH _ _ _ _ Wy H); constructor; assumption.
    + destruct (match cs with [] => negb b | _ => false end); [injection H as <-; constructor|]. destruct (rooted tg); eapply IHk; try exact H; try assumption; constructor.
    + refine (IH _ _ _ _ Wy H); constructor; assumption.
Qed.
Lemma lwfs_names es : lwfs es -> StronglySorted (fun a b => str_lt a b = true) (map fst es) /\ Forall normal (map fst es).
Proof.
  induction es as [|[n x] es IH]; intros Wf; [split; constructor|]. inversion Wf as [|? ? ? Hn Wx We Hs]; subst. destruct (IH We) as [A B]. cbn [map fst]. split; constructor; try assumption. rewrite Forall_map. exact Hs.
Qed.
Theorem C74_histories_are_sane ws : (forall t, lwf (ltop (ws t))) -> sane (history ws).
Proof.
  intros Wf t p names H. unfold history in H. cbn [snap readdir] in H. destruct (llookup (ws t) true p) as [[|tg|[] x es]| |] eqn:E; try discriminate. injection H as <-. unfold llookup in E. destruct p as [|z p]; [discriminate|].
  apply lresolve_lwf in E; [|apply Wf|constructor|apply Wf]. inversion E; subst. apply lwfs_names. assumption.
Qed.

(** ** Examples *)
Definition ddir (es : list (str * LNode)) : LNode := LDir true true es.
Definition s0 : str := lit "/v".
(** One store: bank holds a link that leads nowhere, people is a link to a directory, sites holds a file, a directory and a .DS_Store. *)
Definition store : list (str * LNode) :=
  [(lit ".git", ddir [(lit "x", LFile [])]); (lit "bank", ddir [(lit "gone", LLink (lit "/nowhere"))]); (lit "people", LLink (lit "/elsewhere"));
   (lit "sites", ddir [(lit ".DS_Store", LFile []); (lit "a", LFile (lit "secret")); (lit "d", ddir [(lit "deep", LFile [])])])].
Definition wld (v : LNode) : LWorld := {| ltop := ddir [(lit "elsewhere", ddir [(lit "p", LFile [])]); (lit "link", LLink (lit "v")); (lit "v", v)]; lcwd := [] |}.
Ltac norm := split; [discriminate|split; [discriminate|split; [discriminate|cbn; intros H; repeat (destruct H as [H|H]; [discriminate H|]); exact H]]].
Ltac wfl := repeat first [apply lwf_file|apply lwf_link|apply lwf_dir|apply lwfs_nil|apply lwfs_cons; [norm| | |repeat constructor]].
Example store_wf : lwfs store. Proof. unfold store, ddir. wfl. Qed.
Example store_lives : ~ kills (lit "v") (ddir store).
Proof. rewrite kills_fails, <- (lfound_fails _ []). vm_compute. discriminate. Qed.
Example store_listed : ScanLive (still (wld (ddir store))) s0 0 (Scanned [(lit "bank", [lit "bank/gone"]); (lit "sites", [lit "sites/a"])]) 0.
Proof.
  assert (CR : clean_root s0) by (split; [vm_compute; reflexivity|split; discriminate]).
  destruct (still_dir (wld (ddir store)) s0 CR (ddir store) (lwf_dir _ _ _ store_wf) eq_refl ltac:(vm_compute; reflexivity)) as [H _]. specialize (H 0).
  assert (E : scan_res (wres [] (lfound [] (Base s0) (ddir store))) = Scanned [(lit "bank", [lit "bank/gone"]); (lit "sites", [lit "sites/a"])]) by (vm_compute; reflexivity). rewrite E in H. exact H.
Qed.
(** The same store named by its link. *)
Example store_by_link : llookup (wld (ddir store)) false (lit "/link") = LFound (LLink (lit "v")) /\ llookup (wld (ddir store)) true (lit "/link") = LFound (ddir store) /\ ScanLive (still (wld (ddir store))) (lit "/link") 0 ScanPanic 0.
Proof. split; [vm_compute; reflexivity|]. split; [vm_compute; reflexivity|]. apply (C74_root_link _ _ (lit "v")); [vm_compute; reflexivity|]. split; [lia|vm_compute; reflexivity]. Qed.
(** An unreadable .git. *)
Example git_kills : kills (lit "v") (ddir [(lit ".git", LDir false true []); (lit "sites", ddir [(lit "a", LFile [])])]).
Proof. eapply k_below; [discriminate|left; reflexivity|apply k_list]. Qed.

(** A Scan that overlaps with changes may show a state the store was never in: an entry that is in the store at every moment, moved from one category
    to another, is not listed. *)
Theorem C74_snapshot_refuted : exists ws fs t, (forall u, lwf (ltop (ws u))) /\
  (forall u, exists es cat, llookup (ws u) false s0 = LFound (ddir es) /\ lwfs es /\ ~ kills (lit "v") (ddir es) /\ lentry es cat (lit "a")) /\
  ScanLive (history ws) s0 0 (Scanned fs) t /\ forall cat, ~ listed fs cat (rel cat (lit "a")).
Proof.
  set (A := [(lit "bank", ddir []); (lit "sites", ddir [(lit "a", LFile (lit "secret"))])]). set (B := [(lit "bank", ddir [(lit "a", LFile (lit "secret"))]); (lit "sites", ddir [])]).
  assert (WA : lwfs A) by (unfold A, ddir; wfl). assert (WB : lwfs B) by (unfold B, ddir; wfl).
  set (ws := fun u => wld (ddir (if u =? 0 then A else B))). exists ws, [], 1.
  assert (E : forall u, llookup (ws u) false s0 = LFound (ddir (if u =? 0 then A else B))) by (intros u; unfold ws; destruct (u =? 0); vm_compute; reflexivity).
  split; [|split; [|split]].
  - intros u. unfold ws, wld. cbn [ltop]. unfold ddir at 1 2. destruct (u =? 0); wfl; assumption.
  - intros u. exists (if u =? 0 then A else B), (if u =? 0 then lit "sites" else lit "bank"). split; [apply E|]. destruct (u =? 0).
    + split; [exact WA|]. split; [rewrite kills_fails, <- (lfound_fails _ []); vm_compute; discriminate|]. split; [cbn; tauto|]. split; [discriminate|]. exists true, true, [(lit "a", LFile (lit "secret"))], (LFile (lit "secret")). cbn; split; [tauto|]; split; [tauto|]. left. eauto.
    + split; [exact WB|]. split; [rewrite kills_fails, <- (lfound_fails _ []); vm_compute; discriminate|]. split; [cbn; tauto|]. split; [discriminate|]. exists true, true, [(lit "a", LFile (lit "secret"))], (LFile (lit "secret")). cbn; split; [tauto|]; split; [tauto|]. left. eauto.
  - change (Scanned []) with (scan_res (WOk [])). apply (sl_walk _ _ _ 0 0 true (WOk []) 1); [lia|vm_compute; discriminate|lia|vm_compute; reflexivity|].
    apply (wk_dir _ _ 0 0 1 _ _ [lit "bank"; lit "sites"]); [lia|vm_compute; reflexivity|vm_compute; discriminate|].
    apply (en_next _ _ 0 0 0 1 _ _ _ _ true []); [lia|vm_compute; reflexivity| |].
    + apply (wk_dir _ _ 0 0 0 _ _ []); [lia|vm_compute; reflexivity|vm_compute; discriminate|constructor].
    + apply (en_next _ _ 0 1 1 1 _ _ _ _ true []); [lia|vm_compute; reflexivity| |constructor].
      apply (wk_dir _ _ 1 1 1 _ _ []); [lia|vm_compute; reflexivity|vm_compute; discriminate|constructor].
  - intros cat [l [[] _]].
Qed.
(** Removing one entry during a Scan can end the process. *)
Theorem C74_removal_kills : exists ws t, (forall u, exists es, llookup (ws u) false s0 = LFound (ddir es) /\ lwfs es /\ ~ kills (lit "v") (ddir es)) /\ ScanLive (history ws) s0 0 Fatal t.
Proof.
  set (A := [(lit "sites", ddir [(lit "a", LFile [])])]). set (B := [(lit "sites", ddir [])]). set (ws := fun u => wld (ddir (if u =? 0 then A else B))). exists ws, 1. split.
  - intros u. exists (if u =? 0 then A else B). unfold ws. destruct (u =? 0); (split; [vm_compute; reflexivity|split; [unfold A, B, ddir; wfl|rewrite kills_fails, <- (lfound_fails _ []); vm_compute; discriminate]]).
  - change Fatal with (scan_res WFatal). apply (sl_walk _ _ _ 0 0 true WFatal 1); [lia|vm_compute; discriminate|lia|vm_compute; reflexivity|].
    apply (wk_dir _ _ 0 0 1 _ _ [lit "sites"]); [lia|vm_compute; reflexivity|vm_compute; discriminate|].
    apply (en_stop _ _ 0 0 1 _ _ _ _ true WFatal); [lia|vm_compute; reflexivity| |left; reflexivity].
    apply (wk_dir _ _ 0 0 1 _ _ [lit "a"]); [lia|vm_compute; reflexivity|vm_compute; discriminate|]. apply en_gone with (u := 1); [lia|vm_compute; reflexivity].
Qed.

Print Assumptions C74_listed_was_there.
Print Assumptions C74_constant_entry_listed.
Print Assumptions C74_each_once.
Print Assumptions C74_ends.
Print Assumptions C74_root_link.
Print Assumptions C74_dies_iff.
Print Assumptions C74_lists.
Print Assumptions C74_plain.
Print Assumptions C74_histories_are_sane.
Print Assumptions C74_snapshot_refuted.
Print Assumptions C74_removal_kills.
