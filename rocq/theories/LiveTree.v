(** * Scan of a file system with links and permissions that nobody changes. *)
From Coq Require Import String.
From Coq Require Import ZArith Arith List Bool Lia Sorting.
From Verif Require Import GoStr FsModel CmModel RepoModel RepoSpec FsProofs RepoScan LiveModel LiveProofs.
Import ListNotations.
Open Scope nat_scope.

Section LInd.
  Variable P : LNode -> Prop.
  Hypothesis Hf : forall c, P (LFile c).
  Hypothesis Hl : forall t, P (LLink t).
  Hypothesis Hd : forall r x es, Forall (fun e => P (snd e)) es -> P (LDir r x es).
  Fixpoint lnode_ind2 (nd : LNode) : P nd :=
    match nd with
    | LFile c => Hf c
    | LLink t => Hl t
    | LDir r x es => Hd r x es ((fix go (l : list (str * LNode)) : Forall (fun e => P (snd e)) l :=
        match l with [] => Forall_nil _ | e :: t => Forall_cons _ (lnode_ind2 (snd e)) (go t) end) es)
    end.
End LInd.

(** Directories hold distinct, normal names in lexical order. *)
Inductive lwf : LNode -> Prop :=
  | lwf_file c : lwf (LFile c)
  | lwf_link t : lwf (LLink t)
  | lwf_dir r x es : lwfs es -> lwf (LDir r x es)
with lwfs : list (str * LNode) -> Prop :=
  | lwfs_nil : lwfs []
  | lwfs_cons n x es : normal n -> lwf x -> lwfs es -> Forall (fun e => str_lt n (fst e) = true) es -> lwfs ((n, x) :: es).
Lemma lchild_here es n x : lwfs ((n, x) :: es) -> lchild ((n, x) :: es) n = Some x.
Proof. intros _. cbn [lchild]. destruct (str_dec n n); [reflexivity|contradiction]. Qed.
Lemma lchild_skip n x es m : m <> n -> lchild ((n, x) :: es) m = lchild es m.
Proof. intros N. cbn [lchild]. destruct (str_dec m n); [contradiction|reflexivity]. Qed.

(** ** Resolution *)
Section Res.
  Variable top : LNode.
  Lemma lresolve_unfold k anc cur cs follow : lresolve top k anc cur cs follow =
      match cs with
      | [] => LFound cur
      | c :: r =>
          match cur with
          | LDir _ x es =>
              if eqs c [] then lresolve top k anc cur r follow
              else if negb x then LError
              else if eqs c (lit ".") then lresolve top k anc cur r follow
              else if eqs c (lit "..") then match anc with p :: anc' => lresolve top k anc' p r follow | [] => lresolve top k [] cur r follow end
              else match lchild es c with
                   | None => LMissing
                   | Some (LLink tgt) =>
                       if (match r with [] => negb follow | _ => false end) then LFound (LLink tgt)
                       else match k with
                            | 0 => LError
                            | S k' => if rooted tgt then lresolve top k' [] top (comps tgt ++ r) follow else lresolve top k' anc cur (comps tgt ++ r) follow
                            end
                   | Some nd => lresolve top k (cur :: anc) nd r follow
                   end
          | _ => LError
          end
      end.
  Proof. destruct k; destruct cs; reflexivity. Qed.
  Lemma lresolve_app k : forall cs anc cur r x es, lresolve top k anc cur cs false = LFound (LDir r x es) ->
    exists j anc', forall cs' b, lresolve top k anc cur (cs ++ cs') b = lresolve top j anc' (LDir r x es) cs' b.
  Proof.
    induction k as [k IHk] using lt_wf_ind. induction cs as [|c cs IH]; intros anc cur r x es H; rewrite lresolve_unfold in H.
    - injection H as ->. exists k, anc. reflexivity.
    - destruct cur as [ct|tg|r0 x0 es0]; try discriminate.
      assert (K : forall b cs', lresolve top k anc (LDir r0 x0 es0) ((c :: cs) ++ cs') b = match LDir r0 x0 es0 with
          | LDir _ x es =>
              if eqs c [] then lresolve top k anc (LDir r0 x0 es0) (cs ++ cs') b
              else if negb x then LError
              else if eqs c (lit ".") then lresolve top k anc (LDir r0 x0 es0) (cs ++ cs') b
              else if eqs c (lit "..") then match anc with p :: anc' => lresolve top k anc' p (cs ++ cs') b | [] => lresolve top k [] (LDir r0 x0 es0) (cs ++ cs') b end
              else match lchild es c with
                   | None => LMissing
                   | Some (LLink tgt) =>
                       if (match cs ++ cs' with [] => negb b | _ => false end) then LFound (LLink tgt)
                       else match k with
                            | 0 => LError
                            | S k' => if rooted tgt then lresolve top k' [] top (comps tgt ++ cs ++ cs') b else lresolve top k' anc (LDir r0 x0 es0) (comps tgt ++ cs ++ cs') b
                            end
                   | Some nd => lresolve top k (LDir r0 x0 es0 :: anc) nd (cs ++ cs') b
                   end
          | _ => LError
          end) by (intros; rewrite lresolve_unfold; reflexivity).
      cbn iota beta in K.
      destruct (eqs c []); [destruct (IH _ _ _ _ _ H) as [j [anc' E]]; exists j, anc'; intros; rewrite K; apply E|].
      destruct (negb x0); [discriminate|].
      destruct (eqs c (lit ".")); [destruct (IH _ _ _ _ _ H) as [j [anc' E]]; exists j, anc'; intros; rewrite K; apply E|].
      destruct (eqs c (lit "..")); [destruct anc as [|p anc0]; (destruct (IH _ _ _ _ _ H) as [j [anc' E]]; exists j, anc'; intros; rewrite K; apply E)|].
      destruct (lchild es0 c) as [[ct|tgt|r1 x1 es1]|]; try discriminate; try (destruct (IH _ _ _ _ _ H) as [j [anc' E]]; exists j, anc'; intros; rewrite K; apply E).
      destruct cs as [|c2 cs]; [discriminate|]. cbn [app] in K. cbn iota in H, K. destruct k as [|k']; [discriminate|].
      destruct (rooted tgt); (destruct (IHk k' ltac:(lia) _ _ _ _ _ _ H) as [j [anc' E]]; exists j, anc'; intros cs' b; specialize (K b cs'); cbn [app] in K |- *; rewrite K, <- E, <- app_assoc; reflexivity).
  Qed.
  Lemma lresolve_one k anc r x es nm : normal nm ->
    lresolve top k anc (LDir r x es) [nm] false = if x then match lchild es nm with Some nd => LFound nd | None => LMissing end else LError.
  Proof.
    intros [N1 [N2 [N3 _]]]. rewrite lresolve_unfold. rewrite !eqs_false by assumption. destruct x; [|reflexivity]. cbn [negb]. destruct (lchild es nm) as [[c|t|r1 x1 es1]|]; try reflexivity; rewrite lresolve_unfold; reflexivity.
  Qed.
End Res.

Section Tree.
  Variables (w : LWorld) (root : str).
  Hypothesis CR : clean_root root.
  Let n := length root + 1.
  Lemma root_nonempty : root <> [].
  Proof. destruct (clean_root_stack root CR) as [_ [_ H]]. exact H. Qed.
  Lemma path_comps ns : Forall normal ns -> comps (path_of root ns) = comps root ++ ns.
  Proof.
    intros F. destruct ns as [|a ns]; [cbn; symmetry; apply app_nil_r|]. unfold path_of. rewrite comps_app. rewrite comps_joins; [reflexivity|discriminate|apply normals_noslash; exact F].
  Qed.
  Lemma llookup_path b ns : Forall normal ns ->
    llookup w b (path_of root ns) = lresolve (ltop w) 40 [] (ltop w) (((if rooted root then [] else lcwd w) ++ comps root) ++ ns) b.
  Proof.
    intros F. unfold llookup. assert (R : rooted (path_of root ns) = rooted root) by (destruct ns; [reflexivity|apply rooted_app, root_nonempty]).
    destruct (path_of root ns) as [|z p] eqn:E; [exfalso; destruct ns; cbn in E; [exact (root_nonempty E)|destruct root; discriminate]|]. rewrite <- E in *. rewrite R, path_comps by exact F. rewrite app_assoc. reflexivity.
  Qed.
  Lemma llookup_child ns nm r x es : Forall normal ns -> normal nm -> llookup w false (path_of root ns) = LFound (LDir r x es) ->
    llookup w false (path_of root (ns ++ [nm])) = if x then match lchild es nm with Some nd => LFound nd | None => LMissing end else LError.
  Proof.
    intros F N H. rewrite llookup_path in H by exact F. destruct (lresolve_app _ _ _ _ _ _ _ _ H) as [j [anc' E]].
    rewrite llookup_path by (apply Forall_app; auto). rewrite app_assoc, E. apply lresolve_one. exact N.
  Qed.
  Lemma llookup_dir ns r x es b : Forall normal ns -> llookup w false (path_of root ns) = LFound (LDir r x es) -> llookup w b (path_of root ns) = LFound (LDir r x es).
  Proof.
    intros F H. rewrite llookup_path in H |- * by exact F. destruct (lresolve_app _ _ _ _ _ _ _ _ H) as [j [anc' E]]. specialize (E [] b). rewrite app_nil_r in E. rewrite E, lresolve_unfold. reflexivity.
  Qed.

  (** What the walk adds, None = the process dies. *)
  Definition is_dir (nd : LNode) : bool := match nd with LDir _ _ _ => true | _ => false end.
  Fixpoint lfound (ns : list str) (name : str) (nd : LNode) : option (list (str * str)) :=
    match nd with
    | LDir r x es =>
        if negb r then None else if eqs name (lit ".git") then Some [] else
        (fix go (l : list (str * LNode)) : option (list (str * str)) :=
           match l with
           | [] => Some []
           | (nm, y) :: t => if negb x then None else match lfound (ns ++ [nm]) nm y with None => None | Some a => match go t with None => None | Some b => Some (a ++ b) end end
           end) es
    | _ => Some (found_file ns name)
    end.
  Definition lfounds (x : bool) (ns : list str) : list (str * LNode) -> option (list (str * str)) :=
    fix go (l : list (str * LNode)) :=
      match l with
      | [] => Some []
      | (nm, y) :: t => if negb x then None else match lfound (ns ++ [nm]) nm y with None => None | Some a => match go t with None => None | Some b => Some (a ++ b) end end
      end.
  Lemma lfound_dir ns name r x es : lfound ns name (LDir r x es) = if negb r then None else if eqs name (lit ".git") then Some [] else lfounds x ns es.
  Proof. reflexivity. Qed.
  Definition wres (fs : Files) (o : option (list (str * str))) : WalkRes := match o with Some l => WOk (appends fs l) | None => WFatal end.
  Lemma appends_app fs a b : appends (appends fs a) b = appends fs (a ++ b).
  Proof. unfold appends. rewrite fold_left_app. reflexivity. Qed.
  Lemma lstat_path ns nd : llookup w false (path_of root ns) = LFound nd -> lstat (snap w) (path_of root ns) = Some (is_dir nd).
  Proof. intros H. cbn [snap lstat]. rewrite H. destruct nd; reflexivity. Qed.
  Lemma tree_walk nd : lwf nd -> forall ns fs, Forall normal ns -> (ns = [] -> is_dir nd = true) -> llookup w false (path_of root ns) = LFound nd ->
    (forall t, walks (still w) n t (path_of root ns) (is_dir nd) fs (wres fs (lfound ns (Base (path_of root ns)) nd)) t) /\
    (forall t r t', walks (still w) n t (path_of root ns) (is_dir nd) fs r t' -> r = wres fs (lfound ns (Base (path_of root ns)) nd)).
  Proof.
    assert (Leaf : forall ns fs, Forall normal ns -> ns <> [] ->
      (forall t, walks (still w) n t (path_of root ns) false fs (wres fs (Some (found_file ns (Base (path_of root ns))))) t) /\
      (forall t r t', walks (still w) n t (path_of root ns) false fs r t' -> r = wres fs (Some (found_file ns (Base (path_of root ns)))))).
    { intros ns fs F Ne. destruct (exists_last Ne) as [l [x ->]]. apply Forall_app in F. destruct F as [F1 F2]. inversion F2 as [|? ? Nx _]; subst. rewrite Base_path by exact Nx. pose proof (visit_path root l x fs CR F1 Nx) as V. fold n in V. split.
      - intros t. apply wk_file. rewrite Base_path by exact Nx. exact V.
      - intros t r t' H. inversion H as [? ? ? ? V'|? ? ? V'| | |]; subst; rewrite Base_path, V in V' by exact Nx; [injection V' as <-; reflexivity|discriminate]. }
    induction nd as [c|tg|r x es IH] using lnode_ind2; intros Wf ns fs F T Lk.
    - apply Leaf; [exact F|]. intros E. specialize (T E). discriminate.
    - apply Leaf; [exact F|]. intros E. specialize (T E). discriminate.
    - clear T. rewrite lfound_dir. cbn [is_dir]. pose proof (llookup_dir ns r x es true F Lk) as Lk2.
      assert (Rd : forall u, readdir (still w u) (path_of root ns) = if r then Some (map fst es) else None) by (intros u; cbn [still snap readdir]; rewrite Lk2; destruct r; reflexivity).
      destruct r; cbn [negb].
      2:{ split.
          - intros t. eapply wk_unreadable; [apply le_n|apply Rd].
          - intros t r t' H. inversion H; subst; rewrite Rd in *; try discriminate. reflexivity. }
      destruct (eqs (Base (path_of root ns)) (lit ".git")) eqn:G.
      { apply eqs_iff in G. split.
        - intros t. eapply wk_git; [apply le_n|apply Rd|exact G].
        - intros t r t' H. inversion H; subst; rewrite Rd in *; try discriminate; [reflexivity|contradiction]. }
      assert (Gn : Base (path_of root ns) <> lit ".git") by (intros E; rewrite E, eqs_refl in G; discriminate). clear G.
      inversion Wf as [| |? ? ? We]; subst. clear Wf.
      (* the entries: a suffix of es *)
      assert (En : forall es2 fs, Forall (fun e => lwf (snd e) -> forall ns fs, Forall normal ns -> (ns = [] -> is_dir (snd e) = true) -> llookup w false (path_of root ns) = LFound (snd e) ->
            (forall t, walks (still w) n t (path_of root ns) (is_dir (snd e)) fs (wres fs (lfound ns (Base (path_of root ns)) (snd e))) t) /\
            (forall t r t', walks (still w) n t (path_of root ns) (is_dir (snd e)) fs r t' -> r = wres fs (lfound ns (Base (path_of root ns)) (snd e)))) es2 ->
          lwfs es2 -> (forall nm y, In (nm, y) es2 -> lchild es nm = Some y) ->
          (forall t, wentries (still w) n t (path_of root ns) (map fst es2) fs (wres fs (lfounds x ns es2)) t) /\
          (forall t r t', wentries (still w) n t (path_of root ns) (map fst es2) fs r t' -> r = wres fs (lfounds x ns es2))).
      { clear IH We. induction es2 as [|[nm y] es2 IHe]; intros fs0 Fe We Ch.
        - cbn [map lfounds]. split; [intros t; apply en_end|]. intros t r t' H. inversion H; subst; reflexivity.
        - inversion Fe as [|? ? Hy Fe']; subst. inversion We as [|? ? ? Hn Wy We' _]; subst. cbn [snd map fst] in *.
          pose proof (llookup_child ns nm true x es F Hn Lk) as Lc. rewrite (Ch nm y (or_introl eq_refl)) in Lc.
          cbn [lfounds]. fold (lfounds x ns). destruct x; cbn [negb].
          + assert (Ls : forall u, lstat (still w u) (Join (path_of root ns) nm) = Some (is_dir y)) by (intros u; rewrite path_join by assumption; apply lstat_path; exact Lc).
            assert (Fn : Forall normal (ns ++ [nm])) by (apply Forall_app; auto).
            destruct (Hy Wy (ns ++ [nm]) fs0 Fn ltac:(intros E; destruct ns; discriminate) Lc) as [Y1 Y2]. rewrite Base_path in Y1, Y2 by exact Hn.
            destruct (lfound (ns ++ [nm]) nm y) as [a|].
            * destruct (IHe (appends fs0 a) Fe' We') as [E1 E2]; [intros m z I; apply Ch; right; exact I|].
              assert (Q : wres fs0 (match lfounds true ns es2 with None => None | Some b => Some (a ++ b) end) = wres (appends fs0 a) (lfounds true ns es2)) by (destruct (lfounds true ns es2); cbn [wres]; [rewrite appends_app|]; reflexivity).
              rewrite Q. split.
              -- intros t. eapply en_next; [apply le_n|apply Ls| |apply E1]. rewrite path_join by assumption. apply Y1.
              -- intros t r t' H. inversion H as [|? ? ? ? ? ? L0 N0|? u v ? ? ? ? ? d f1 ? L0 Ls0 Wk En'|? u v ? ? ? ? d ? L0 Ls0 Wk Hr]; subst.
                 ++ rewrite Ls in N0. discriminate.
                 ++ rewrite Ls in Ls0. injection Ls0 as <-. rewrite path_join in Wk by assumption. apply Y2 in Wk. cbn [wres] in Wk. injection Wk as ->. exact (E2 _ _ _ En').
                 ++ rewrite Ls in Ls0. injection Ls0 as <-. rewrite path_join in Wk by assumption. apply Y2 in Wk. cbn [wres] in Wk. subst r. destruct Hr; discriminate.
            * cbn [wres]. split.
              -- intros t. eapply en_stop; [apply le_n|apply Ls| |left; reflexivity]. rewrite path_join by assumption. apply Y1.
              -- intros t r t' H. inversion H as [|? ? ? ? ? ? L0 N0|? u v ? ? ? ? ? d f1 ? L0 Ls0 Wk En'|? u v ? ? ? ? d ? L0 Ls0 Wk Hr]; subst; [reflexivity| |].
                 ++ rewrite Ls in Ls0. injection Ls0 as <-. rewrite path_join in Wk by assumption. apply Y2 in Wk. discriminate.
                 ++ rewrite Ls in Ls0. injection Ls0 as <-. rewrite path_join in Wk by assumption. apply Y2 in Wk. exact Wk.
          + assert (Ls : forall u, lstat (still w u) (Join (path_of root ns) nm) = None) by (intros u; rewrite path_join by assumption; cbn [still snap lstat]; rewrite Lc; reflexivity).
            cbn [wres]. split.
            * intros t. eapply en_gone; [apply le_n|apply Ls].
            * intros t r t' H. inversion H as [|? ? ? ? ? ? L0 N0|? u v ? ? ? ? ? d f1 ? L0 Ls0 Wk En'|? u v ? ? ? ? d ? L0 Ls0 Wk Hr]; subst; [reflexivity| |]; rewrite Ls in Ls0; discriminate. }
      assert (Ch : forall nm y, In (nm, y) es -> lchild es nm = Some y).
      { clear - We. induction es as [|[m z] es IHs]; intros nm y I; [contradiction|]. inversion We as [|? ? ? Hm Wz We' Hs]; subst. cbn [lchild]. destruct I as [I|I].
        - injection I as -> ->. destruct (str_dec nm nm); [reflexivity|contradiction].
        - destruct (str_dec nm m) as [->|]; [|apply IHs; assumption]. exfalso. rewrite Forall_forall in Hs. specialize (Hs _ I). cbn [fst] in Hs. rewrite str_lt_irrefl in Hs. discriminate. }
      destruct (En es fs IH We Ch) as [E1 E2]. split.
      + intros t. eapply wk_dir; [apply le_n|apply Rd|exact Gn|apply E1].
      + intros t r t' H. inversion H as [| |? ? ? ? L0 R0|? ? ? ? ? L0 R0 G0|? u ? ? ? names ? L0 R0 G0 En']; subst; rewrite Rd in R0; [discriminate|contradiction|]. injection R0 as <-. exact (E2 _ _ _ En').
  Qed.
End Tree.

(** ** Failing trees *)
(** Links count as files. *)
Fixpoint erase (nd : LNode) : Node :=
  match nd with LFile c => File c | LLink _ => File [] | LDir _ _ es => Dir (map (fun e => (fst e, erase (snd e))) es) end.
Definition erases (es : list (str * LNode)) : list (str * Node) := map (fun e => (fst e, erase (snd e))) es.
Lemma lfound_erase nd : forall ns name l, lfound ns name nd = Some l -> l = found ns name (erase nd).
Proof.
  induction nd as [c|t|r x es IH] using lnode_ind2; intros ns name l H; [injection H as <-; reflexivity|injection H as <-; reflexivity|]. rewrite lfound_dir in H. cbn [erase]. fold (erases es). rewrite found_dir.
  destruct (negb r); [discriminate|]. destruct (eqs name (lit ".git")); [injection H as <-; reflexivity|]. revert l H. induction IH as [|[nm y] es Hy F IHe]; intros l H; [injection H as <-; reflexivity|].
  cbn [lfounds] in H. fold (lfounds x ns) in H. destruct (negb x); [discriminate|]. destruct (lfound (ns ++ [nm]) nm y) as [a|] eqn:E1; [|discriminate]. destruct (lfounds x ns es) as [b|] eqn:E2; [|discriminate]. injection H as <-.
  cbn [snd] in Hy. cbn [erases map fst snd founds]. fold (founds ns). fold (erases es). rewrite <- (Hy _ _ _ E1). f_equal. apply IHe. reflexivity.
Qed.
Lemma lwf_erase nd : lwf nd -> wf (erase nd).
Proof.
  induction nd as [c|t|r x es IH] using lnode_ind2; intros Wf; [constructor|constructor|]. inversion Wf as [| |? ? ? We]; subst. constructor. clear Wf. induction IH as [|[nm y] es Hy F IHe]; [constructor|].
  inversion We as [|? ? ? Hn Wy We' Hs]; subst. cbn [map fst snd]. constructor; [exact Hn|apply Hy; exact Wy|apply IHe; exact We'|]. rewrite Forall_map. exact Hs.
Qed.
Lemma lwfs_erase es : lwfs es -> wfs (erases es).
Proof. intros H. pose proof (lwf_erase (LDir true true es) (lwf_dir _ _ _ H)) as X. inversion X; assumption. Qed.
(** A directory that cannot be listed, or that is not empty and cannot be searched, is met. *)
Inductive fails : str -> LNode -> Prop :=
  | f_list name x es : fails name (LDir false x es)
  | f_search name es : name <> lit ".git" -> es <> [] -> fails name (LDir true false es)
  | f_below name es nm nd : name <> lit ".git" -> In (nm, nd) es -> fails nm nd -> fails name (LDir true true es).
Lemma lfound_fails nd : forall ns name, lfound ns name nd = None <-> fails name nd.
Proof.
  induction nd as [c|t|r x es IH] using lnode_ind2; intros ns name; [split; [discriminate|intros H; inversion H]|split; [discriminate|intros H; inversion H]|]. rewrite lfound_dir.
  destruct r; cbn [negb]; [|split; [intros _; constructor|reflexivity]].
  destruct (eqs name (lit ".git")) eqn:G; [apply eqs_iff in G; split; [discriminate|intros H; inversion H; contradiction]|]. assert (Gn : name <> lit ".git") by (intros E; rewrite E, eqs_refl in G; discriminate). clear G.
  destruct x.
  - transitivity (exists nm nd, In (nm, nd) es /\ fails nm nd).
    + induction IH as [|[nm y] es Hy F IHe]; [cbn; split; [discriminate|intros [nm [nd [[] _]]]]|]. cbn [lfounds]. fold (lfounds true ns). cbn [negb]. cbn [snd] in Hy. specialize (Hy (ns ++ [nm]) nm).
      destruct (lfound (ns ++ [nm]) nm y) as [a|]; [|split; [intros _; exists nm, y; split; [left; reflexivity|apply Hy; reflexivity]|reflexivity]].
      destruct (lfounds true ns es) as [b|].
      * split; [discriminate|]. intros [m [nd [[I|I] Fl]]]; [injection I as <- <-; apply Hy in Fl; discriminate|]. assert (@Some (list (str * str)) b = None) by (apply IHe; eauto). discriminate.
      * split; [|reflexivity]. intros _. destruct (proj1 IHe eq_refl) as [m [nd [I Fl]]]. exists m, nd. split; [right; exact I|exact Fl].
    + split; [intros [nm [nd [I Fl]]]; eapply f_below; eauto|]. intros H. inversion H; subst. eauto.
  - destruct es as [|[nm y] es]; [split; [discriminate|intros H; inversion H; subst; contradiction]|]. split; [intros _; apply f_search; [exact Gn|discriminate]|reflexivity].
Qed.
