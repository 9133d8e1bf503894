(** * Proofs about Scan. *)
From Coq Require Import String.
From Coq Require Import ZArith Arith List Bool Lia Sorting Permutation.
From Verif Require Import GoStr FsModel CmModel RepoModel RepoSpec FsProofs CmProofs.
Import ListNotations.
Open Scope nat_scope.

Section NodeInd.
  Variable P : Node -> Prop.
  Hypothesis Hf : forall c, P (File c).
  Hypothesis Hd : forall es, Forall (fun e => P (snd e)) es -> P (Dir es).
  Fixpoint node_ind2 (nd : Node) : P nd :=
    match nd with
    | File c => Hf c
    | Dir es => Hd es ((fix go (l : list (str * Node)) : Forall (fun e => P (snd e)) l :=
        match l with [] => Forall_nil _ | e :: t => Forall_cons _ (node_ind2 (snd e)) (go t) end) es)
    end.
End NodeInd.

(** What the walk appends below the elements [ns]. *)
Definition found_file (ns : list str) (name : str) : list (str * str) :=
  if eqs name (lit ".DS_Store") then [] else if included (DirOf (joins ns)) then [(DirOf (joins ns), joins ns)] else [].
Fixpoint found (ns : list str) (name : str) (nd : Node) : list (str * str) :=
  match nd with
  | File _ => found_file ns name
  | Dir es => if eqs name (lit ".git") then [] else
      (fix go (l : list (str * Node)) : list (str * str) := match l with [] => [] | (nm, x) :: t => found (ns ++ [nm]) nm x ++ go t end) es
  end.
Definition founds (ns : list str) : list (str * Node) -> list (str * str) :=
  fix go (l : list (str * Node)) := match l with [] => [] | (nm, x) :: t => found (ns ++ [nm]) nm x ++ go t end.
Lemma found_dir ns name es : found ns name (Dir es) = if eqs name (lit ".git") then [] else founds ns es.
Proof. reflexivity. Qed.
Definition appends (fs : Files) (l : list (str * str)) : Files := fold_left (fun fs e => append_file fs (fst e) (snd e)) l fs.
Definition entries_walk (n : nat) (path : str) : list (str * Node) -> Files -> option Files :=
  fix go (l : list (str * Node)) (fs : Files) : option Files :=
    match l with [] => Some fs | (nm, x) :: t => match walk n (Join path nm) nm x fs with Some fs' => go t fs' | None => None end end.
Lemma walk_dir n path name es fs : walk n path name (Dir es) fs = if eqs name (lit ".git") then Some fs else entries_walk n path es fs.
Proof. reflexivity. Qed.
Definition path_of (root : str) (ns : list str) : str := match ns with [] => root | _ => root ++ slash :: joins ns end.
Lemma normals_noslash ns : Forall normal ns -> Forall (fun c => ~ In slash c) ns.
Proof. apply Forall_impl. intros c [_ [_ [_ H]]]. exact H. Qed.
Lemma path_join root ns n : clean_root root -> Forall normal ns -> normal n -> Join (path_of root ns) n = path_of root (ns ++ [n]).
Proof.
  intros CR F N. destruct ns as [|a ns].
  - cbn [path_of app joins]. apply Join_below; [exact CR|apply N|rewrite normal_comps by exact N; constructor; [exact N|constructor]].
  - assert (X : path_of root ((a :: ns) ++ [n]) = path_of root (a :: ns) ++ slash :: n).
    { unfold path_of. cbn [app]. rewrite app_comm_cons, joins_snoc by discriminate. rewrite <- app_assoc. reflexivity. }
    rewrite X. apply Join_below; [|apply N|rewrite normal_comps by exact N; constructor; [exact N|constructor]].
    apply clean_root_below; [exact CR|]. rewrite comps_joins; [exact F|discriminate|apply normals_noslash; exact F].
Qed.
Lemma walk_found root : clean_root root -> forall nd, wf nd -> forall ns name fs, Forall normal ns ->
  (ns = [] -> match nd with File _ => False | _ => True end) ->
  walk (length root + 1) (path_of root ns) name nd fs = Some (appends fs (found ns name nd)).
Proof.
  intros CR. induction nd as [c|es IH] using node_ind2; intros W ns name fs F T.
  - destruct ns as [|a ns]; [destruct (T eq_refl)|]. cbn [walk found]. unfold visit_file, found_file. cbn [path_of].
    rewrite app_length. cbn [length]. destruct (Nat.ltb_spec (length root + S (length (joins (a :: ns)))) (length root + 1)) as [L|L]; [lia|].
    replace (skipn (length root + 1) (root ++ slash :: joins (a :: ns))) with (joins (a :: ns)).
    2:{ rewrite skipn_app. rewrite skipn_all2 by lia. replace (length root + 1 - length root) with 1 by lia. reflexivity. }
    destruct (eqs name (lit ".DS_Store")); [reflexivity|]. destruct (included _); reflexivity.
  - rewrite walk_dir, found_dir. destruct (eqs name (lit ".git")); [reflexivity|]. inversion W as [|? We]; subst. clear W T.
    revert fs. induction es as [|[nm x] es IHe]; intros fs; [reflexivity|]. inversion IH as [|? ? Hx IH']; subst. inversion We as [|? ? ? Hn Wx We' _]; subst. cbn [snd] in Hx.
    cbn [entries_walk founds]. fold (entries_walk (length root + 1) (path_of root ns)). fold (founds ns).
    rewrite path_join by assumption. rewrite Hx; [|exact Wx|apply Forall_app; split; [exact F|constructor; [exact Hn|constructor]]|intros E; destruct ns; discriminate].
    rewrite IHe by assumption. unfold appends. rewrite fold_left_app. reflexivity.
Qed.

(** ** What is found *)
Definition filenames (sub : list (str * Node)) : list str :=
  flat_map (fun e => match snd e with File _ => if eqs (fst e) (lit ".DS_Store") then [] else [fst e] | Dir _ => [] end) sub.
Definition store_list (es : list (str * Node)) : list (str * str) :=
  flat_map (fun e => match snd e with Dir sub => if included (fst e) then map (fun nm => (fst e, rel (fst e) nm)) (filenames sub) else [] | File _ => [] end) es.
Lemma included_in d : included d = true <-> In d categories.
Proof.
  unfold included. rewrite existsb_exists. split; [intros [x [I E]]; apply eqs_iff in E; subst; exact I|]. intros I. exists d. split; [exact I|apply eqs_refl].
Qed.
Lemma included_normal d : included d = true -> ~ In slash d /\ d <> lit ".git".
Proof.
  rewrite included_in. unfold categories. cbn [map In]. intros H.
  repeat (destruct H as [<-|H]; [split; [cbn; intuition discriminate|discriminate]|]). contradiction.
Qed.
Lemma joins_two a b l : In slash (joins (a :: b :: l)).
Proof. cbn [joins]. apply in_or_app. right. left. reflexivity. Qed.
Lemma dir_deep ns n : Forall normal ns -> normal n -> 2 <= length ns -> included (DirOf (joins (ns ++ [n]))) = false.
Proof.
  intros F N L. rewrite DirOf_rel by assumption. destruct ns as [|a [|b ns]]; cbn [length] in L; try lia.
  destruct (included _) eqn:E; [|reflexivity]. apply included_normal in E. destruct E as [E _]. exfalso. apply E. apply joins_two.
Qed.
Lemma found_deep nd : wf nd -> forall ns n, Forall normal ns -> normal n -> 2 <= length ns -> found (ns ++ [n]) n nd = [].
Proof.
  induction nd as [c|es IH] using node_ind2; intros W ns n F N L.
  - cbn [found]. unfold found_file. destruct (eqs n _); [reflexivity|]. rewrite dir_deep by assumption. reflexivity.
  - rewrite found_dir. destruct (eqs n (lit ".git")); [reflexivity|]. inversion W as [|? We]; subst. clear W. induction es as [|[nm x] es IHe]; [reflexivity|].
    inversion IH; subst. inversion We; subst. cbn [founds]. fold (founds (ns ++ [n])). rewrite IHe by assumption. rewrite H1; [reflexivity|assumption|apply Forall_app; split; [exact F|constructor; [exact N|constructor]]|assumption|rewrite app_length; cbn; lia].
Qed.
Lemma included_dot : included (lit ".") = false. Proof. reflexivity. Qed.
Lemma found_cat c sub : normal c -> wfs sub -> found [c] c (Dir sub) = if included c then map (fun nm => (c, rel c nm)) (filenames sub) else [].
Proof.
  intros N W. rewrite found_dir. destruct (eqs c (lit ".git")) eqn:G.
  - apply eqs_iff in G. subst c. reflexivity.
  - induction sub as [|[nm x] sub IH]; [destruct (included c); reflexivity|]. inversion W as [|? ? ? Hn Wx We _]; subst. cbn [founds]. fold (founds [c]). rewrite (IH We).
    unfold filenames. cbn [flat_map snd fst]. fold (filenames sub). destruct x as [ct|es2].
    + cbn [app found]. unfold found_file. pose proof (DirOf_rel [c] nm ltac:(constructor; [assumption|constructor]) Hn) as DE. cbn [app] in DE. rewrite DE. cbn [joins].
      destruct (eqs nm (lit ".DS_Store")) eqn:D; cbn [app map]; [destruct (included c); reflexivity|]. destruct (included c); reflexivity.
    + cbn [app]. rewrite found_dir. destruct (eqs nm (lit ".git")); [destruct (included c); reflexivity|].
      assert (E : founds [c; nm] es2 = []).
      { inversion Wx as [|? W2]; subst. clear -W2 N Hn. induction es2 as [|[m y] es2 IH2]; [reflexivity|]. inversion W2; subst. cbn [founds]. fold (founds [c; nm]). rewrite IH2 by assumption.
        change ([c; nm] ++ [m]) with ([c; nm] ++ [m]). rewrite found_deep; [reflexivity|assumption|constructor; [exact N|constructor; [exact Hn|constructor]]|assumption|cbn; lia]. }
      rewrite E. destruct (included c); reflexivity.
Qed.
Lemma founds_root es : wfs es -> founds [] es = store_list es.
Proof.
  induction es as [|[nm x] es IH]; intros W; [reflexivity|]. inversion W as [|? ? ? Hn Wx We _]; subst. cbn [founds]. fold (founds []). rewrite (IH We). unfold store_list. cbn [flat_map snd fst]. f_equal.
  destruct x as [c|sub].
  - cbn [app found]. unfold found_file. pose proof (DirOf_rel [] nm ltac:(constructor) Hn) as DE. cbn [app] in DE. rewrite DE, included_dot. destruct (eqs nm _); reflexivity.
  - cbn [app]. inversion Wx; subst. apply found_cat; assumption.
Qed.

(** ** The map *)
Lemma get_append fs d f k : get str_dec (append_file fs d f) k = if str_dec k d then Some ((match get str_dec fs k with Some l => l | None => [] end) ++ [f]) else get str_dec fs k.
Proof. unfold append_file. rewrite get_put. destruct (str_dec k d) as [->|]; reflexivity. Qed.
Definition under (d : str) (l : list (str * str)) : list str := map snd (filter (fun e => eqs (fst e) d) l).
Lemma get_appends l : forall fs d, get str_dec (appends fs l) d = match get str_dec fs d, under d l with
  | None, [] => None | None, u => Some u | Some x, u => Some (x ++ u) end.
Proof.
  induction l as [|[k f] l IH]; intros fs d; unfold appends, under in *; cbn [fold_left filter map fst snd].
  - destruct (get str_dec fs d); [rewrite app_nil_r|]; reflexivity.
  - fold (appends (append_file fs k f) l) in *. unfold appends. rewrite IH, get_append. unfold eqs. destruct (str_dec k d) as [->|N]; cbn [map snd].
    + destruct (str_dec d d) as [_|]; [|contradiction]. destruct (get str_dec fs d) as [x|]; [rewrite <- app_assoc|]; reflexivity.
    + destruct (str_dec d k) as [E|_]; [congruence|]. reflexivity.
Qed.
Lemma put_nodup {V} m (k : str) (v : V) : NoDup (map fst m) -> NoDup (map fst (put str_dec m k v)).
Proof.
  induction m as [|[a b] m IH]; intros N; [constructor; [intros []|constructor]|]. cbn [put]. inversion N as [|? ? N1 N2]; subst. destruct (str_dec k a) as [->|Ne]; [constructor; assumption|].
  cbn [map fst]. constructor; [|apply IH; exact N2]. intros I. apply N1. apply in_map_iff in I. destruct I as [[x y] [E I]]. cbn [fst] in E. subst x.
  clear -I Ne. induction m as [|[c d] m IH]; cbn [put] in I; [destruct I as [I|[]]; congruence|]. destruct (str_dec k c) as [->|]; [destruct I as [I|I]; [congruence|right; apply in_map_iff; exists (a, y); auto]|].
  destruct I as [I|I]; [injection I as -> ->; left; reflexivity|right; apply IH; exact I].
Qed.
Lemma appends_nodup l : forall fs, NoDup (map fst fs) -> NoDup (map fst (appends fs l)).
Proof. induction l as [|e l IH]; intros fs N; [exact N|]. unfold appends. cbn [fold_left]. apply IH. apply put_nodup. exact N. Qed.

(** ** Sorting *)
Lemma str_lt_trans a b c : str_lt a b = true -> str_lt b c = true -> str_lt a c = true.
Proof.
  revert b c. induction a as [|x a IH]; intros [|y b] [|z c] H1 H2; cbn in *; try discriminate; try reflexivity.
  apply orb_true_iff in H1. apply orb_true_iff in H2. apply orb_true_iff. destruct H1 as [H1|H1], H2 as [H2|H2].
  - left. apply Z.ltb_lt in H1. apply Z.ltb_lt in H2. apply Z.ltb_lt. lia.
  - apply andb_true_iff in H2. destruct H2 as [E _]. apply Z.eqb_eq in E. subst. left. exact H1.
  - apply andb_true_iff in H1. destruct H1 as [E _]. apply Z.eqb_eq in E. subst. left. exact H2.
  - apply andb_true_iff in H1. apply andb_true_iff in H2. destruct H1 as [E1 H1], H2 as [E2 H2]. apply Z.eqb_eq in E1. apply Z.eqb_eq in E2. subst. right. rewrite Z.eqb_refl. exact (IH _ _ H1 H2).
Qed.
Lemma str_lt_irrefl a : str_lt a a = false.
Proof. induction a as [|x a IH]; [reflexivity|]. cbn. rewrite Z.ltb_irrefl, Z.eqb_refl. exact IH. Qed.
Lemma str_lt_prefix p a b : str_lt (p ++ a) (p ++ b) = str_lt a b.
Proof. induction p as [|x p IH]; [reflexivity|]. cbn. rewrite Z.ltb_irrefl, Z.eqb_refl. exact IH. Qed.
Definition sorted (l : list str) : Prop := StronglySorted (fun a b => str_lt a b = true) l.
Lemma sorted_nodup l : sorted l -> NoDup l.
Proof.
  induction 1 as [|a l S1 IH F]; constructor; [|exact IH]. intros I. rewrite Forall_forall in F. specialize (F _ I). rewrite str_lt_irrefl in F. discriminate.
Qed.
Lemma filenames_in sub n : In n (filenames sub) <-> n <> lit ".DS_Store" /\ exists c, In (n, File c) sub.
Proof.
  unfold filenames. rewrite in_flat_map. split.
  - intros [[m [c|es]] [I H]]; cbn [snd fst] in H; [|contradiction]. destruct (eqs m (lit ".DS_Store")) eqn:E; [contradiction|]. destruct H as [<-|[]]. split; [|exists c; exact I].
    intros ->. rewrite eqs_refl in E. discriminate.
  - intros [N [c I]]. exists (n, File c). split; [exact I|]. cbn [snd fst]. rewrite eqs_false by exact N. left. reflexivity.
Qed.
Lemma filenames_sorted sub : wfs sub -> sorted (filenames sub).
Proof.
  induction sub as [|[n x] sub IH]; intros W; [constructor|]. inversion W as [|? ? ? Hn Wx We Hs]; subst. unfold filenames. cbn [flat_map snd fst]. fold (filenames sub).
  destruct x as [c|es]; [|apply IH; exact We]. destruct (eqs n (lit ".DS_Store")); [apply IH; exact We|]. cbn [app]. constructor; [apply IH; exact We|].
  rewrite Forall_forall in *. intros m I. apply filenames_in in I. destruct I as [_ [c' I]]. exact (Hs _ I).
Qed.
Lemma under_store es cat : wfs es -> under cat (store_list es) = match child es cat with Some (Dir sub) => if included cat then map (rel cat) (filenames sub) else [] | _ => [] end.
Proof.
  induction es as [|[n x] es IH]; intros W; [reflexivity|]. inversion W as [|? ? ? Hn Wx We Hs]; subst. unfold store_list. cbn [flat_map snd fst]. fold (store_list es). unfold under. rewrite filter_app, map_app. fold (under cat (store_list es)).
  rewrite (IH We). cbn [child].
  assert (K : forall (b : bool) ks, map snd (filter (fun e : str * str => eqs (fst e) cat) (if b then map (fun nm => (n, rel n nm)) ks else [])) = if eqs n cat then (if b then map (rel n) ks else []) else []).
  { intros b ks. destruct b; [|destruct (eqs n cat); reflexivity]. induction ks as [|k ks IHk]; [destruct (eqs n cat); reflexivity|]. cbn [map filter fst]. destruct (eqs n cat); cbn [map snd]; [rewrite IHk; reflexivity|exact IHk]. }
  destruct (str_dec cat n) as [->|Ne].
  - assert (X : child es n = None). { destruct (child es n) as [y|] eqn:E; [|reflexivity]. exfalso. apply (child_in _ _ _ We) in E. rewrite Forall_forall in Hs. specialize (Hs _ E). cbn [fst] in Hs. rewrite str_lt_irrefl in Hs. discriminate. }
    rewrite X, app_nil_r. destruct x as [c|sub]; [reflexivity|]. rewrite K, eqs_refl. reflexivity.
  - destruct x as [c|sub]; [reflexivity|]. rewrite K, eqs_false by congruence. reflexivity.
Qed.
Lemma rel_sorted cat l : sorted l -> sorted (map (rel cat) l).
Proof.
  induction 1 as [|a l S1 IH F]; [constructor|]. cbn [map]. constructor; [exact IH|]. rewrite Forall_forall in *. intros x I. apply in_map_iff in I. destruct I as [b [<- I]].
  unfold rel. rewrite !app_assoc. rewrite str_lt_prefix. exact (F _ I).
Qed.
(** The result of Scan on a good root. *)
Lemma scan_result w root es : clean_root root -> Base root <> lit ".git" -> lookup w root = Found (Dir es) -> wfs es ->
  Scan w root = Scanned (appends [] (store_list es)).
Proof.
  intros CR B L W. unfold Scan. rewrite L. change root with (path_of root []) at 2. rewrite (walk_found root CR (Dir es)); [|constructor; exact W|constructor|intros _; exact I].
  rewrite found_dir, eqs_false by exact B. rewrite founds_root by exact W. reflexivity.
Qed.
