(** * Compiled nested patterns (proofs for C46_nested). *)
From Coq Require Import String.
From Coq Require Import ZArith Arith List Bool Lia.
From Verif Require Import Utf8 GoStr GlobLex GlobMatch GlobCompile GlobSpec GlobFragment GlobFactor GlobSem GlobGlue GlobLeaf GlobSeq GlobAlt GlobNestSpec GlobShare.
Import ListNotations.
Open Scope nat_scope.

Section Nest.
Context {md : Mode}.
Local Notation searchable := (GlobNestSpec.searchable mode).
Local Notation follows := (GlobNestSpec.follows mode).
Local Notation row := (GlobNestSpec.row mode).
Local Notation fits := (GlobNestSpec.fits mode).
Local Notation item := (GlobNestSpec.item mode).
Definition zlen (o : option nat) : Z := match o with Some k => Z.of_nat k | None => (-1)%Z end.
Lemma zlen_none o : zlen o = (-1)%Z <-> o = None.
Proof. destruct o; cbn; split; intros H; try discriminate; try reflexivity. lia. Qed.
Record iof (seps : list Z) (n : Node) (x : el) : Prop := {
  i_good : good x;
  i_den : forall s, dom s -> (lg x s <-> den seps n s);
  i_comp : exists f m, compile_f f n seps = Some m /\ optimizeMatcher m = mtc x;
  i_kind : forall e k, glue_kind (mtc x) = Some (e, k) -> excluded seps n = Some e;
  i_back : forall e, excluded seps n = Some e -> exists k, glue_kind (mtc x) = Some (e, k);
  i_len : Len (mtc x) = zlen (size seps n);
  i_pref : searchable seps n -> pref (lg x) (sem (mtc x));
  i_text : forall t, mtc x = MText t -> literal n = Some t;
  i_super : mtc x = MSuper -> wide seps n;
  i_total : ~ blunt n -> total x;
  i_plain : match mtc x with MPrefix _ | MSuffix _ => False | _ => True end }.
Lemma star_excluded seps n : star n -> exists e, excluded seps n = Some e.
Proof. intros [->| ->]; eexists; reflexivity. Qed.
Lemma iof_leaf seps n : ascii seps -> leaf n -> (mode = true -> ~ negative_leaf n) -> exists x, iof seps n x.
Proof.
  intros As Lf Pos. destruct (elof_leaf seps n As Lf Pos) as [x E]. exists x. destruct (e_comp _ _ _ E) as [f [m [C O]]].
  assert (W : forall k, width n = Some k -> size seps n = Some k) by (intros k; destruct n; cbn; congruence).
  assert (NS : width n = None -> star n) by (destruct n; cbn; intros; try discriminate; try contradiction; [left|right]; reflexivity).
  split; try apply E; auto.
  - intros e Ex. destruct n as [|ns|[|] cs|b lo hi|t| | | |ns]; cbn in Ex; try discriminate; injection Ex as <-.
    + destruct f as [|f]; [discriminate|]. cbn in C. injection C as <-. cbn in O. exists GOne. rewrite <- O. destruct (runes cs) as [|c [|? ?]]; reflexivity.
    + destruct (e_starkind _ _ _ E ltac:(left; reflexivity)) as [e [k [A B]]]. cbn in A. injection A as <-. eauto.
    + destruct (e_starkind _ _ _ E ltac:(right; reflexivity)) as [e [k [A B]]]. cbn in A. injection A as <-. eauto.
    + destruct f as [|f]; [discriminate|]. cbn in C. injection C as <-. cbn in O. exists GOne. rewrite <- O. reflexivity.
  - destruct (width n) as [k|] eqn:Wn.
    + rewrite (W k eq_refl). cbn. apply (e_width _ _ _ E k Wn).
    + destruct (NS eq_refl) as [->| ->]; (destruct f as [|f]; [discriminate|]); cbn in C; injection C as <-; rewrite <- O; [destruct seps; reflexivity|reflexivity].
  - intros SE. destruct (width n) as [k|] eqn:Wn; [apply (fixed_pref k), (e_width _ _ _ E k Wn)|]. apply (e_pref _ _ _ E).
    + destruct (NS eq_refl) as [->| ->]; (destruct f as [|f]; [discriminate|]); cbn in C; injection C as <-; rewrite <- O; [destruct seps; reflexivity|reflexivity].
    + intros ->. inversion SE as [? k Sz| | | | | |]; subst; [discriminate|assumption].
  - intros NB. apply (e_total _ _ _ E). intros [N|[ls [-> _]]]; [apply NB; constructor; exact N|destruct Lf].
Qed.
Lemma iof_adj seps n n' x y : iof seps n x -> iof seps n' y -> follows seps n n' -> adj x y.
Proof.
  intros X Y [A [B C]]. split.
  - intros e a b Ea Eb. apply (A e); [apply (i_kind _ _ _ X _ _ Ea)|apply (i_kind _ _ _ Y _ _ Eb)].
  - intros Nx Ny. apply (i_den _ _ _ X [] ltac:(constructor)) in Nx. apply (i_den _ _ _ Y [] ltac:(constructor)) in Ny. destruct (B Nx Ny) as [S1 [_ E]].
    destruct (star_excluded seps n S1) as [e Ex]. destruct (i_back _ _ _ X e Ex) as [k K]. rewrite E in Ex. destruct (i_back _ _ _ Y e Ex) as [k' K']. eauto.
  - intros Lx Ly. apply (i_pref _ _ _ X). apply C; [apply zlen_none; rewrite <- (i_len _ _ _ X); exact Lx|]. destruct Ly as [Ly|Ly].
    + left. apply zlen_none. rewrite <- (i_len _ _ _ Y). exact Ly.
    + right. destruct (glue_kind (mtc y)) as [[e k]|] eqn:K; [|contradiction]. rewrite (i_kind _ _ _ Y e k K). discriminate.
  - pose proof (i_plain _ _ _ X) as PX. pose proof (i_plain _ _ _ Y) as PY. split; intros p t E E'; [rewrite E in PX; exact PX|rewrite E' in PY; exact PY].
Qed.
Lemma items_chain seps ns xs : Forall2 (iof seps) ns xs -> row seps ns -> chain xs.
Proof.
  induction 1 as [|n x ns xs E F IH]; intros Q; [exact I|]. destruct F as [|n' y ns xs E' F]; [exact I|]. destruct Q as [Q1 Q2]. split; [apply (iof_adj seps n n'); assumption|apply IH, Q2].
Qed.
Lemma items_good seps ns xs : Forall2 (iof seps) ns xs -> Forall good xs.
Proof. induction 1 as [|n x ns xs E F IH]; constructor; [apply (i_good _ _ _ E)|exact IH]. Qed.
Lemma items_lang seps ns xs : Forall2 (iof seps) ns xs -> forall s, dom s -> (catL (map lg xs) s <-> cat seps ns s).
Proof.
  induction 1 as [|n x ns xs E F IH]; intros s As; cbn [map catL cat]; [reflexivity|].
  split; intros [u [v [-> [A B]]]]; apply dom_app in As; destruct As as [Au Av]; exists u, v; (split; [reflexivity|]); (split; [apply (i_den _ _ _ E u Au), A|apply (IH v Av), B]).
Qed.
Lemma items_between seps ns xs : Forall2 (iof seps) ns xs -> forall mid p q, map mtc xs = MText p :: mid ++ [MText q] -> mid <> [] -> Forall (fun m => m = MSuper) mid -> between seps ns p q.
Proof.
  intros F mid p q E Ne FS. inversion F as [|a x ns' xs' Ea F']; subst; [discriminate|]. cbn [map] in E. injection E as Ex E. destruct xs' as [|y xs' _] using rev_ind; [destruct mid; discriminate|].
  rewrite map_app in E. cbn [map] in E. apply app_inj_tail in E. destruct E as [Em Ey]. apply Forall2_app_inv_r in F'. destruct F' as [nm [nb [Fm [Fb ->]]]]. inversion Fb as [|b y' ? ? Eb Fnil]; subst. inversion Fnil; subst.
  exists a, nm, b. split; [reflexivity|]. split; [apply (i_text _ _ _ Ea), Ex|]. split; [apply (i_text _ _ _ Eb), Ey|]. split; [destruct Fm; [contradiction Ne; reflexivity|discriminate]|].
  clear - Fm FS. induction Fm as [|n x nm xs E F IH]; [constructor|]. cbn [map] in FS. inversion FS; subst. constructor; [apply (i_super _ _ _ E); assumption|apply IH; assumption].
Qed.
Lemma items_compile seps ns xs : Forall2 (iof seps) ns xs -> ns <> [] ->
  exists f, compile_f f (NPattern ns) seps = option_map optimizeMatcher (compileMatchers (minimizeMatchers (map mtc xs))).
Proof.
  intros F Ne. assert (MC : Forall (fun p => exists f m0, compile_f f (fst p) seps = Some m0 /\ optimizeMatcher m0 = mtc (snd p)) (combine ns xs)).
  { clear - F. induction F as [|n x ns xs E F IH]; constructor; [apply (i_comp _ _ _ E)|exact IH]. }
  destruct (map_opt_fuel fst (fun p => mtc (snd p)) seps _ MC) as [f Hf].
  assert (E1 : map (@fst Node el) (combine ns xs) = ns) by (clear - F; induction F; cbn; congruence).
  assert (E2 : map (fun p : Node * el => mtc (snd p)) (combine ns xs) = map mtc xs) by (clear - F; induction F; cbn; congruence).
  rewrite E1, E2 in Hf. exists (S f). cbn [compile_f]. destruct ns as [|n ns]; [contradiction|]. rewrite Hf. reflexivity.
Qed.

(** ** What minimizeMatchers makes of known lengths *)
Definition noempty (ms : list Matcher) : Prop := ~ In (MAny []) ms.
Lemma every_kinds ms g : glueMatchersAsEvery ms = Some g -> exists e ks, 2 <= length ms /\ glue_kinds e ms = Some ks.
Proof.
  intros H. unfold glueMatchersAsEvery in H. destruct (Nat.leb_spec (length ms) 1); [discriminate|]. destruct ms as [|m0 ms]; [discriminate|]. destruct (glue_kind m0) as [[e k]|]; [|discriminate].
  destruct (glue_kinds e (m0 :: ms)) as [ks|] eqn:K; [|discriminate]. exists e, ks. split; [lia|exact K].
Qed.
Lemma kinds_back e : forall ms ks, glue_kinds e ms = Some ks -> forall k, In k ks -> exists m, In m ms /\ glue_kind m = Some (e, k).
Proof.
  induction ms as [|m ms IH]; intros ks H k I; cbn in H; [injection H as <-; destruct I|]. destruct (glue_kind m) as [[e' k']|] eqn:K; [|discriminate]. destruct (zs_eqb e' e) eqn:Z; [|discriminate]. apply zs_eqb_iff in Z. subst e'.
  destruct (glue_kinds e ms) as [ks'|] eqn:G; [|discriminate]. injection H as <-. destruct I as [<-|I]; [exists m; split; [left; reflexivity|exact K]|]. destruct (IH ks' eq_refl k I) as [m' [J Q]]. exists m'. split; [right; exact J|exact Q].
Qed.
Lemma kinds_nil e ms : glue_kinds e ms = Some [] -> ms = [].
Proof. destruct ms as [|m ms]; [reflexivity|]. cbn. destruct (glue_kind m) as [[e' k']|]; [|discriminate]. destruct (zs_eqb e' e); [|discriminate]. destruct (glue_kinds e ms); discriminate. Qed.
(** A glued run of wildcards has no known length. *)
Lemma every_len_unknown ms g : noempty ms -> glueMatchersAsEvery ms = Some g -> Len g = (-1)%Z /\ g <> MAny [].
Proof.
  intros NE H. unfold glueMatchersAsEvery in H. destruct (Nat.leb_spec (length ms) 1); [discriminate|]. destruct ms as [|m0 ms']; [discriminate|]. set (ms := m0 :: ms') in *. destruct (glue_kind m0) as [[e k]|] eqn:K0; [|discriminate].
  destruct (glue_kinds e ms) as [ks|] eqn:K; [|discriminate].
  assert (A : existsb is_any ks = true -> e <> []).
  { intros X. apply existsb_exists in X. destruct X as [k' [I X]]. destruct k'; try discriminate. destruct (kinds_back e ms ks K _ I) as [m [Im Km]]. intros ->. apply NE. destruct m; try discriminate; cbn in Km.
    - injection Km as ->. exact Im.
    - destruct not; discriminate. }
  assert (O : existsb is_one ks = true -> 0 < length (filter is_one ks)).
  { intros X. apply existsb_exists in X. destruct X as [k' [I X]]. assert (J : In k' (filter is_one ks)) by (apply filter_In; auto). destruct (filter is_one ks); [destruct J|cbn; lia]. }
  assert (N0 : existsb is_super ks = true \/ existsb is_any ks = true \/ existsb is_one ks = true).
  { destruct ks as [|k' ks]; [apply kinds_nil in K; discriminate|]. destruct k'; cbn; auto. }
  destruct (existsb is_any ks); [specialize (A eq_refl); destruct e as [|e0 e]; [contradiction|]|]; (destruct (existsb is_one ks); [specialize (O eq_refl); apply Nat.ltb_lt in O; rewrite O in H|]);
    destruct (existsb is_super ks); cbn [andb orb negb] in H; try (destruct (length e =? 0)); try (injection H as <-; split; [reflexivity|discriminate]).
  all: try (destruct N0 as [N0|[N0|N0]]; discriminate).
  all: change (length (e0 :: e) =? 0) with false in H; rewrite andb_false_r in H; change (0 <? length (e0 :: e)) with true in H; cbv iota in H; injection H as <-; (split; [|discriminate]); destruct (0 <? length (filter is_one ks)); reflexivity.
Qed.
Lemma glue_unknown ms g : noempty ms -> glueMatchers ms = Some g -> g <> MAny [] /\ (Exists (fun m => Len m = (-1)%Z) ms -> Len g = (-1)%Z).
Proof.
  intros NE H. unfold glueMatchers in H. destruct (glueMatchersAsEvery ms) as [g'|] eqn:E.
  - injection H as ->. destruct (every_len_unknown ms g NE E) as [A B]. auto.
  - unfold glueMatchersAsRow in H. destruct (_ <=? _); [discriminate|]. destruct (existsb _ ms) eqn:X; [discriminate|]. injection H as <-. split; [discriminate|]. intros Y. exfalso. apply Exists_exists in Y. destruct Y as [m [I Y]].
    rewrite existsb_false_iff in X. specialize (X m I). rewrite Y in X. discriminate.
Qed.
Lemma slice_split {A} (ms : list A) l r : l < r -> r <= length ms -> ms = firstn l ms ++ firstn (r - l) (skipn l ms) ++ skipn r ms.
Proof.
  intros H1 H2. rewrite <- (firstn_skipn l ms) at 1. f_equal. rewrite <- (firstn_skipn (r - l) (skipn l ms)) at 1. f_equal. rewrite skipn_add. f_equal. lia.
Qed.
Lemma minimize_unknown : forall fuel ms, noempty ms -> Exists (fun m => Len m = (-1)%Z) ms -> Exists (fun m => Len m = (-1)%Z) (minimize_f fuel ms).
Proof.
  induction fuel as [|f IH]; intros ms NE X; cbn [minimize_f]; [exact X|].
  pose proof (consider_spec ms (slices (length ms)) None) as CS. destruct (fold_left (consider ms) (slices (length ms)) None) as [[[d l] r]|]; [|exact X].
  destruct CS as [CS|[In0 GL]]; [discriminate|]. apply in_slices in In0. destruct In0 as [Hl Hr]. pose proof (slice_split ms l r Hl Hr) as SP.
  set (a := firstn l ms) in *. set (mid := firstn (r - l) (skipn l ms)) in *. set (c := skipn r ms) in *. clearbody a mid c.
  assert (NM : noempty mid) by (intros I; apply NE; rewrite SP; apply in_or_app; right; apply in_or_app; left; exact I).
  destruct (glue_unknown mid d NM GL) as [ND LD].
  assert (N' : noempty (a ++ d :: c)).
  { intros I. apply in_app_or in I. destruct I as [I|[I|I]]; [|contradiction|]; apply NE; rewrite SP; apply in_or_app; [left; exact I|right; apply in_or_app; right; exact I]. }
  assert (X' : Exists (fun m => Len m = (-1)%Z) (a ++ d :: c)).
  { rewrite SP in X. apply Exists_app in X. apply Exists_app. destruct X as [X|X]; [left; exact X|]. right. apply Exists_app in X. destruct X as [X|X]; [apply Exists_cons_hd, LD, X|apply Exists_cons_tl, X]. }
  destruct (_ =? _); [exact X'|]. apply IH; assumption.
Qed.
Lemma slices_first n : slices (S n) = (0, S n) :: tl (slices (S n)).
Proof. unfold slices. cbn [seq flat_map]. rewrite Nat.sub_0_r. cbn [seq map app tl]. rewrite Nat.sub_0_r. reflexivity. Qed.
Definition sum_len (ms : list Matcher) : Z := fold_right (fun m l => (Len m + l)%Z) 0%Z ms.
Lemma sum_len_app a b : sum_len (a ++ b) = (sum_len a + sum_len b)%Z.
Proof. induction a as [|m a IH]; cbn [app sum_len fold_right]; [reflexivity|]. fold (sum_len (a ++ b)). rewrite IH. unfold sum_len. lia. Qed.
Lemma sum_len_ge ms : Forall (fun m => (0 <= Len m)%Z) ms -> (0 <= sum_len ms)%Z.
Proof. induction 1 as [|m ms H _ IH]; cbn [sum_len fold_right]; [lia|]. fold (sum_len ms). lia. Qed.
(** A list that can be glued as a whole is. *)
Lemma minimize_whole ms g : noempty ms -> glueMatchers ms = Some g -> Len g = (-1)%Z \/ (Forall (fun m => (0 <= Len m)%Z) ms /\ Len g = sum_len ms) -> minimizeMatchers ms = [g].
Proof.
  intros NE G LG. pose proof (glue_two _ _ G) as L2. unfold minimizeMatchers. destruct (length ms) as [|n] eqn:EL; [lia|]. cbn [minimize_f]. rewrite EL, slices_first. cbn [fold_left].
  assert (F0 : firstn (S n - 0) (skipn 0 ms) = ms) by (cbn [skipn]; rewrite Nat.sub_0_r, <- EL; apply firstn_all).
  assert (C0 : consider ms None (0, S n) = Some (g, 0, S n)) by (unfold consider; rewrite F0, G; reflexivity). rewrite C0.
  assert (K : forall ls, (forall l r, In (l, r) ls -> l < r /\ r <= S n) -> fold_left (consider ms) ls (Some (g, 0, S n)) = Some (g, 0, S n)).
  { induction ls as [|[l r] ls IH]; intros B; cbn [fold_left]; [reflexivity|]. destruct (B l r (or_introl eq_refl)) as [Hl Hr].
    assert (E1 : consider ms (Some (g, 0, S n)) (l, r) = Some (g, 0, S n)).
    { unfold consider. destruct (glueMatchers (firstn (r - l) (skipn l ms))) as [g'|] eqn:G'; [|reflexivity].
      assert (T : (S n - 0 <? r - l) = false) by (apply Nat.ltb_ge; lia). rewrite T, orb_false_r.
      destruct LG as [LG|[FL LG]]; [rewrite LG; reflexivity|]. pose proof (slice_split ms l r Hl ltac:(lia)) as SP. set (a := firstn l ms) in *. set (mid := firstn (r - l) (skipn l ms)) in *. set (c := skipn r ms) in *. clearbody a mid c.
      rewrite SP in FL. apply Forall_app in FL. destruct FL as [Fa FL]. apply Forall_app in FL. destruct FL as [Fm Fc].
      assert (LE : (Len g' <= Len g)%Z).
      { rewrite LG, SP, !sum_len_app. pose proof (sum_len_ge _ Fa). pose proof (sum_len_ge _ Fc). pose proof (sum_len_ge _ Fm). unfold glueMatchers in G'. destruct (glueMatchersAsEvery mid) as [g''|] eqn:GE.
        - injection G' as ->. destruct (every_len_unknown mid g') as [Q _]; [intros I; apply NE; rewrite SP; apply in_or_app; right; apply in_or_app; left; exact I|exact GE|]. lia.
        - unfold glueMatchersAsRow in G'. destruct (_ <=? _); [discriminate|]. destruct (existsb _ mid); [discriminate|]. injection G' as <-. change (Len (MRow mid (fold_right (fun m l => (Len m + l)%Z) 0%Z mid))) with (sum_len mid). lia. }
      destruct (Z.ltb_spec (Len g) (Len g')); [lia|]. rewrite andb_false_r. reflexivity. }
    rewrite E1. apply IH. intros l' r' I. apply B. right. exact I. }
  rewrite K.
  - cbn [firstn app]. rewrite <- EL, skipn_all. cbn [length]. destruct (Nat.eqb_spec 1 (length ms)); [lia|]. destruct n as [|n]; [lia|]. cbn [minimize_f length]. reflexivity.
  - intros l r I. apply in_slices. rewrite slices_first. right. exact I.
Qed.

(** ** Sequences *)
Lemma good_ext x L : (forall s, lg x s <-> L s) -> good x -> good (mtc x, L).
Proof.
  intros E [A B C D]. split; cbn [mtc lg fst snd].
  - apply (elem_ext (lg x) L _ E A).
  - exact B.
  - intros t Et s. rewrite <- E. apply C, Et.
  - intros e k Ek. destruct (D e k Ek) as [D1 D2]. split; [exact D1|]. destruct k.
    + destruct D2 as [D2 D3]. split; [exact D2|]. intros s. apply E, D3.
    + destruct D2 as [D2 D3]. split; [exact D2|]. intros s. rewrite <- E. apply D3.
    + destruct D2 as [D2 D3]. split; [exact D2|]. intros s. rewrite <- E. apply D3.
Qed.
(** The compiled sequence can itself be an element of a sequence. *)
Lemma seq_good xs m : Forall good xs -> chain xs -> xs <> [] -> ~ text_stars_text (map mtc xs) -> option_map optimizeMatcher (compileMatchers (minimizeMatchers (map mtc xs))) = Some m -> good (m, catL (map lg xs)).
Proof.
  intros G C Nx NT Cm. unfold minimizeMatchers, compileMatchers in Cm. rewrite map_length in Cm.
  destruct (minimize_spec (length xs) xs G C (le_n _)) as [ys [Y1 [Y2 [Y3 [Y4 [Y5 [Y6 [Y7 Y8]]]]]]]]. rewrite <- Y1 in Cm. rewrite map_length in Cm. specialize (Y8 Nx).
  destruct (compile_res (length ys) ys Y2 Y3 Y4 Y8 (le_n _)) as [m' [Cm' R]]. rewrite Cm' in Cm. cbn [option_map] in Cm. injection Cm as <-. destruct (Nat.le_gt_cases 2 (length ys)) as [L|L].
  - assert (FR : free (catL (map lg xs)) (sem (optimizeMatcher m'))) by (apply (free_ext _ _ _ Y5), (r_opt _ _ R L); intros B; apply NT, Y7, bad_stars, B).
    assert (LN : Len (optimizeMatcher m') = (-1)%Z) by apply FR.
    split; cbn [mtc lg fst snd].
    + right. exact FR.
    + apply (r_fix _ _ R).
    + intros t E. rewrite E in LN. unfold Len in LN. cbn in LN. lia.
    + intros e k E. destruct (optimizeMatcher m') eqn:O; cbn in E; try discriminate.
      all: try (cbn in LN; discriminate LN).
      all: assert (LY : length (map mtc ys) = 1) by (first [rewrite (r_any _ _ R _ O); reflexivity|rewrite (r_super _ _ R O); reflexivity]); rewrite map_length in LY; lia.
  - destruct ys as [|y [|? ?]]; [contradiction|clear L|cbn in L; lia]. rewrite (r_one _ _ R y eq_refl). inversion Y2 as [|? ? Gy _]; subst. rewrite (g_opt y Gy).
    apply (good_ext y); [|exact Gy]. intros s. rewrite <- Y5. symmetry. apply catL_one.
Qed.
Record pof (seps : list Z) (ns : list Node) (x : el) : Prop := {
  p_comp : exists f, compile_f f (NPattern ns) seps = Some (mtc x);
  p_opt : optimizeMatcher (mtc x) = mtc x;
  p_den : forall s, dom s -> (lg x s <-> den seps (NPattern ns) s);
  p_right : forall s, dom s -> (s = [] -> forall n, ns = [n] -> ~ blunt n) -> right (sem (mtc x)) (lg x) s;
  p_len : Len (mtc x) = zlen (size seps (NPattern ns));
  p_fixed : forall k, size seps (NPattern ns) = Some k -> ns <> [] -> fixed k (lg x) (sem (mtc x));
  p_pref : searchable seps (NPattern ns) -> pref (lg x) (sem (mtc x));
  p_good : ns <> [] -> good x;
  p_loose : loose (lg x);
  p_glue : glue_kind (mtc x) <> None -> size seps (NPattern ns) = None \/ exists n, ns = [n] /\ excluded seps n <> None }.
Lemma good_noempty xs : Forall good xs -> noempty (map mtc xs).
Proof. intros G I. apply in_map_iff in I. destruct I as [x [E I]]. rewrite Forall_forall in G. destruct (g_kind x (G x I) [] GAny) as [_ [N _]]; [rewrite E; reflexivity|]. apply N. reflexivity. Qed.
Lemma good_sized x k : good x -> Len (mtc x) = Z.of_nat k -> fixed k (lg x) (sem (mtc x)).
Proof.
  intros G E. destruct (good_fixed x G) as [j F]; [lia|]. assert (j = k) as ->; [|exact F]. destruct F as [Q _]. unfold Len in E. rewrite Q in E. lia.
Qed.
Lemma pref_nothing : pref (fun s => s = []) (sem MNothing).
Proof.
  split; [|exact loose_nil]. intros s _. cbn [sem sIndex]. split; [lia|]. split; [|lia]. intros _ j. split.
  - intros [<-|[]]. split; [lia|reflexivity].
  - intros L E _. left. destruct s; [cbn in L; lia|]. destruct j; [reflexivity|discriminate].
Qed.
Lemma uniform_kinds seps ns xs : Forall2 (iof seps) ns xs -> forall e, forallb (fun n' => if zlist_dec (excluded seps n') (Some e) then true else false) ns = true <-> exists ks, glue_kinds e (map mtc xs) = Some ks.
Proof.
  induction 1 as [|n x ns xs E F IH]; intros e; cbn [forallb map glue_kinds]; [split; eauto|].
  rewrite andb_true_iff, IH. destruct (zlist_dec (excluded seps n) (Some e)) as [Q|Q].
  - destruct (i_back _ _ _ E e Q) as [k K]. rewrite K. assert (Z1 : zs_eqb e e = true) by (apply zs_eqb_iff; reflexivity). rewrite Z1. split.
    + intros [_ [ks H]]. rewrite H. eauto.
    + intros [ks H]. split; [reflexivity|]. destruct (glue_kinds e (map mtc xs)); [eauto|discriminate].
  - split; [intros [H _]; discriminate|]. intros [ks H]. exfalso. destruct (glue_kind (mtc x)) as [[e' k]|] eqn:K; [|discriminate]. destruct (zs_eqb e' e) eqn:Z1; [|discriminate]. apply zs_eqb_iff in Z1. subst e'. apply Q, (i_kind _ _ _ E e k K).
Qed.
Lemma uniform_every seps ns xs : Forall2 (iof seps) ns xs -> (uniform seps ns = true <-> glueMatchersAsEvery (map mtc xs) <> None).
Proof.
  intros F. destruct F as [|n x ns xs E F]; [cbn; split; [discriminate|intros H; contradiction H; reflexivity]|]. destruct F as [|n' x' ns xs E' F]; [cbn; split; [discriminate|intros H; contradiction H; reflexivity]|].
  assert (F2 : Forall2 (iof seps) (n :: n' :: ns) (x :: x' :: xs)) by (constructor; [exact E|]; constructor; [exact E'|exact F]).
  unfold uniform. assert (GE : glueMatchersAsEvery (map mtc (x :: x' :: xs)) <> None <-> exists e k ks, glue_kind (mtc x) = Some (e, k) /\ glue_kinds e (map mtc (x :: x' :: xs)) = Some ks).
  { unfold glueMatchersAsEvery. destruct (Nat.leb_spec (length (map mtc (x :: x' :: xs))) 1) as [H|_]; [cbn in H; lia|]. cbn [map]. destruct (glue_kind (mtc x)) as [[e k]|] eqn:K.
    - split.
      + intros H. exists e, k. destruct (glue_kinds e (mtc x :: mtc x' :: map mtc xs)) as [ks|]; [eauto|contradiction H; reflexivity].
      + intros [e' [k' [ks [Q H]]]]. injection Q as <- <-. rewrite H. destruct (_ && _); [discriminate|]. destruct (_ && _); [discriminate|]. destruct (_ && _); discriminate.
    - split; [intros H; contradiction H; reflexivity|]. intros [e [k [ks [Q _]]]]. discriminate. }
  rewrite GE. destruct (excluded seps n) as [e|] eqn:X.
  - rewrite (uniform_kinds seps _ _ F2 e). destruct (i_back _ _ _ E e X) as [k K]. split.
    + intros [ks H]. exists e, k, ks. auto.
    + intros [e' [k' [ks [Q H]]]]. rewrite K in Q. injection Q as <- <-. eauto.
  - split; [discriminate|]. intros [e [k [ks [Q _]]]]. rewrite (i_kind _ _ _ E e k Q) in X. discriminate.
Qed.
Lemma total_sum seps ns xs : Forall2 (iof seps) ns xs -> match total_size (map (size seps) ns) with
  | Some k => Forall (fun m => (0 <= Len m)%Z) (map mtc xs) /\ sum_len (map mtc xs) = Z.of_nat k
  | None => Exists (fun m => Len m = (-1)%Z) (map mtc xs) end.
Proof.
  induction 1 as [|n x ns xs E F IH]; cbn [map total_size]; [split; [constructor|reflexivity]|]. pose proof (i_len _ _ _ E) as L. destruct (size seps n) as [k|]; cbn [zlen] in L.
  - destruct (total_size (map (size seps) ns)) as [j|].
    + destruct IH as [A B]. split; [constructor; [lia|exact A]|]. cbn [sum_len fold_right]. fold (sum_len (map mtc xs)). lia.
    + apply Exists_cons_tl, IH.
  - apply Exists_cons_hd, L.
Qed.
Lemma total_ge seps ns xs : Forall2 (iof seps) ns xs -> forall k, total_size (map (size seps) ns) = Some k -> length ns <= k.
Proof.
  induction 1 as [|n x ns xs E F IH]; intros k H; cbn [map total_size] in H; [cbn; lia|]. destruct (size seps n) as [j|] eqn:Sz; [|discriminate]. destruct (total_size (map (size seps) ns)) as [i|]; [|discriminate]. injection H as <-. specialize (IH i eq_refl).
  pose proof (i_len _ _ _ E) as L. rewrite Sz in L. destruct (good_sized x j (i_good _ _ _ E) L) as [_ [J _]]. cbn [length]. lia.
Qed.
Lemma phrase_compiled seps ns xs : Forall2 (iof seps) ns xs -> fits seps ns -> exists x, pof seps ns x.
Proof.
  intros FX [Q NB]. destruct ns as [|n0 ns0].
  { exists (MNothing, fun s => s = []). split; cbn [mtc lg fst snd].
    - exists 1. reflexivity.
    - reflexivity.
    - intros s _. rewrite den_pattern. reflexivity.
    - intros s _ _. cbn [sem]. eexists. split; [reflexivity|]. rewrite eqs_iff. reflexivity.
    - reflexivity.
    - intros k _ N. contradiction N. reflexivity.
    - intros _. apply pref_nothing.
    - intros N. contradiction N. reflexivity.
    - exact loose_nil.
    - intros N. contradiction N. reflexivity. }
  set (ns := n0 :: ns0) in *. assert (Nx : xs <> []) by (inversion FX; discriminate). pose proof (items_good _ _ _ FX) as G. pose proof (items_chain _ _ _ FX Q) as C.
  destruct (seq_right xs G C Nx) as [m [Cm [R [ONE O]]]]. destruct (items_compile seps ns xs FX ltac:(discriminate)) as [f Cf]. rewrite Cm in Cf.
  assert (NT : ~ text_stars_text (map mtc xs)) by (intros [p [mid [q [Em [Nm Fm]]]]]; apply (NB p q); apply (items_between seps ns xs FX mid); assumption).
  exists (m, catL (map lg xs)).
  assert (LEN : Len m = zlen (size seps (NPattern ns)) /\ (forall k, size seps (NPattern ns) = Some k -> fixed k (catL (map lg xs)) (sem m)) /\ (2 <= length ns \/ exists x, xs = [x] /\ ns = [n0])).
  { inversion FX as [|? x0 ? xs0 E0 F0]; subst. destruct F0 as [|n1 x1 ns1 xs1 E1 F1].
    - rewrite (ONE x0 eq_refl). subst ns. cbn [size uniform map total_size]. assert (SZ : match size seps n0 with Some k => Some (k + 0) | None => None end = size seps n0) by (destruct (size seps n0); [f_equal; lia|reflexivity]). rewrite SZ.
      split; [apply (i_len _ _ _ E0)|]. split; [|right; eauto]. intros k Ek. pose proof (i_len _ _ _ E0) as L0. rewrite Ek in L0. apply (fixed_ext k (lg x0)); [intros s; symmetry; apply catL_one|]. apply good_sized; [apply (i_good _ _ _ E0)|exact L0].
    - set (xs := x0 :: x1 :: xs1) in *. assert (L2 : 2 <= length xs) by (unfold xs; cbn; lia). cut (Len m = zlen (size seps (NPattern ns)) /\ (forall k, size seps (NPattern ns) = Some k -> fixed k (catL (map lg xs)) (sem m))); [intros [H1 H2]; split; [exact H1|]; split; [exact H2|]; left; unfold ns; cbn; lia|].
      assert (W : forall g, glueMatchers (map mtc xs) = Some g -> Len g = (-1)%Z \/ (Forall (fun m => (0 <= Len m)%Z) (map mtc xs) /\ Len g = sum_len (map mtc xs)) -> m = g /\ good (g, catL (map lg xs))).
      { intros g Gg Lg. destruct (first_last xs L2) as [fx [mx [lx EX]]]. rewrite EX in G, C. assert (Gg' := Gg). rewrite EX in Gg'. destruct (glued fx mx lx g G C Gg') as [[GG _] _]. rewrite <- EX in GG. split; [|exact GG].
        rewrite (minimize_whole _ g (good_noempty xs ltac:(rewrite EX; exact G)) Gg Lg) in Cm. cbn in Cm. injection Cm as <-. apply (g_opt _ GG). }
      pose proof (total_sum seps ns xs FX) as TS. cbn [size]. destruct (uniform seps ns) eqn:U.
      + apply (uniform_every seps ns xs FX) in U. destruct (glueMatchersAsEvery (map mtc xs)) as [g|] eqn:GE; [|contradiction U; reflexivity].
        destruct (every_len_unknown _ g (good_noempty xs G) GE) as [LG _]. destruct (W g) as [-> _]; [unfold glueMatchers; rewrite GE; reflexivity|left; exact LG|]. split; [exact LG|discriminate].
      + assert (GE : glueMatchersAsEvery (map mtc xs) = None) by (destruct (glueMatchersAsEvery (map mtc xs)) eqn:GE; [|reflexivity]; assert (U' : uniform seps ns = true) by (apply (uniform_every seps ns xs FX); congruence); congruence).
        destruct (total_size (map (size seps) ns)) as [k|].
        * destruct TS as [FL SL]. assert (GR : glueMatchers (map mtc xs) = Some (MRow (map mtc xs) (sum_len (map mtc xs)))).
          { unfold glueMatchers. rewrite GE. unfold glueMatchersAsRow. rewrite map_length. destruct (Nat.leb_spec (length xs) 1); [lia|]. rewrite (proj2 (existsb_false_iff _ _)); [reflexivity|]. intros y Iy. rewrite Forall_forall in FL. specialize (FL y Iy). apply Z.eqb_neq. lia. }
          destruct (W _ GR) as [-> GG]; [right; split; [exact FL|reflexivity]|]. cbn [zlen]. split; [exact SL|]. intros j Ej. injection Ej as <-. apply (good_sized (MRow (map mtc xs) (sum_len (map mtc xs)), catL (map lg xs)) k GG). exact SL.
        * split; [|discriminate]. unfold minimizeMatchers, compileMatchers in Cm. rewrite map_length in Cm.
          pose proof (minimize_unknown (length xs) _ (good_noempty xs G) TS) as UN.
          destruct (minimize_spec (length xs) xs G C (le_n _)) as [ys [Y1 [Y2 [Y3 [Y4 [Y5 [Y6 [Y7 Y8]]]]]]]]. rewrite <- Y1 in UN, Cm. rewrite map_length in Cm. specialize (Y8 Nx).
          destruct (compile_res (length ys) ys Y2 Y3 Y4 Y8 (le_n _)) as [m' [Cm' R']]. rewrite Cm' in Cm. cbn [option_map] in Cm. injection Cm as <-. destruct (Nat.le_gt_cases 2 (length ys)) as [L|L].
          -- cbn [zlen]. apply (r_opt _ _ R' L). intros B. apply NT, Y7, bad_stars, B.
          -- destruct ys as [|y [|? ?]]; [contradiction|clear L|cbn in L; lia]. rewrite (r_one _ _ R' y eq_refl). inversion Y2 as [|? ? Gy _]; subst. rewrite (g_opt y Gy). inversion UN as [? ? H|? ? H]; subst; [exact H|inversion H]. }
  destruct LEN as [LEN [FIX LN]]. split; cbn [mtc lg fst snd].
  - exists f. exact Cf.
  - exact O.
  - intros s Hs. rewrite (items_lang _ _ _ FX s Hs). symmetry. apply den_pattern.
  - intros s Hs E. apply R; [exact NT|exact Hs|]. destruct s as [|c s]; [right|left; discriminate]. intros x Ex. rewrite Ex in FX. inversion FX as [|n1 x1 ns1 xs1 E1 F1 En]; subst. inversion F1; subst. apply (i_total _ _ _ E1). apply (E eq_refl). reflexivity.
  - exact LEN.
  - intros k Ek _. apply FIX, Ek.
  - intros SE. assert (SC : (exists k, size seps (NPattern ns) = Some k) \/ (exists n, searchable seps n /\ ns = [n]) \/ exists t, mode = false /\ (ns = [NText t; NSuper] \/ (length seps <= 1 /\ ns = [NText t; NAny]))) by (clear - SE; clearbody ns; inversion SE; subst; eauto 10).
    destruct SC as [[k Ek]|[[n [Sn En]]|[t [MF En]]]]; [apply (fixed_pref k), FIX, Ek| |].
    + destruct LN as [LN|[x [-> _]]]; [rewrite En in LN; cbn in LN; lia|].
      inversion FX as [|n1 x1 ns1 xs1 E1 F1]; subst. rewrite (ONE x eq_refl). apply (pref_ext (lg x)); [intros s; symmetry; apply catL_one|]. apply (i_pref _ _ _ E1). injection En as <- _. exact Sn.
    + assert (NBy : ~ is_bytes) by (unfold is_bytes; rewrite MF; discriminate). assert (XS : exists n' x0 x1, ns = [NText t; n'] /\ xs = [x0; x1] /\ iof seps (NText t) x0 /\ iof seps n' x1 /\ (n' = NSuper \/ (length seps <= 1 /\ n' = NAny))).
      { clear - FX En. clearbody ns. destruct En as [-> |[Hs ->]]; inversion FX as [|? x0 ? ? E0 F0]; subst; inversion F0 as [|? x1 ? ? E1 F1]; subst; inversion F1; subst; eexists _, x0, x1; eauto 8. }
      destruct XS as [n' [x0 [x1 [-> [EX [E0 [E1 KN]]]]]]]. 
      assert (M0 : mtc x0 = MText t) by (destruct (i_comp _ _ _ E0) as [[|f0] [m0 [C0 O0]]]; [discriminate|]; cbn in C0; injection C0 as <-; symmetry; exact O0).
      assert (M1 : mtc x1 = MSuper \/ (exists c e, seps = c :: e /\ length seps <= 1 /\ n' = NAny /\ mtc x1 = MAny seps)).
      { destruct (i_comp _ _ _ E1) as [[|f1] [m1 [C1 O1]]]; [discriminate|]. destruct KN as [->|[Ls ->]]; cbn in C1; injection C1 as <-; [left; symmetry; exact O1|]. destruct seps as [|c e]; [left; symmetry; exact O1|right; exists c, e; repeat split; auto]. }
      assert (L0 : forall s, lg x0 s <-> s = t) by (intros s; apply (g_text x0 (i_good _ _ _ E0) t M0)).
      rewrite EX in Cm. cbn [map] in Cm. rewrite M0 in Cm. rewrite EX. cbn [map].
      destruct M1 as [M1|[c [e [Es [Ls [-> M1]]]]]].
      * rewrite M1, compile_text_star in Cm by (left; reflexivity). injection Cm as <-. apply (pref_ext (fun s => exists u, s = t ++ u /\ True)); [|apply pref_prefix, NBy].
        intros s. cbn [catL]. destruct (g_kind x1 (i_good _ _ _ E1) [] GSuper) as [_ [_ ALL]]; [rewrite M1; reflexivity|]. split.
        -- intros [u [-> _]]. exists t, u. split; [reflexivity|]. split; [apply L0; reflexivity|]. exists u, []. rewrite app_nil_r. auto.
        -- intros [u [v [-> [A _]]]]. apply L0 in A. subst u. eauto.
      * destruct (g_kind x1 (i_good _ _ _ E1) seps GAny) as [Ae [_ ALL]]; [rewrite M1; reflexivity|].
        rewrite M1, compile_text_star in Cm by (right; exists c, e; rewrite <- Es; reflexivity). injection Cm as <-. apply (pref_ext (fun s => exists u, s = t ++ u /\ anyL seps u)); [|apply pref_prefix_any; assumption].
        intros s. cbn [catL]. split.
        -- intros [u [-> A]]. exists t, u. split; [reflexivity|]. split; [apply L0; reflexivity|]. exists u, []. rewrite app_nil_r. split; [reflexivity|]. split; [apply ALL, A|reflexivity].
        -- intros [u [v [-> [A [v1 [v2 [-> [B ->]]]]]]]]. apply L0 in A. subst u. apply ALL in B. exists v1. rewrite app_nil_r. auto.
  - intros _. apply seq_good; assumption.
  - apply goods_loose, G.
  - intros K. destruct (size seps (NPattern ns)) as [k|] eqn:SZ; [right|left; reflexivity]. destruct LN as [LN|[x [-> En]]].
    + exfalso. cbn [size] in SZ. destruct (uniform seps ns); [discriminate|]. pose proof (total_ge seps ns xs FX k SZ) as GE. destruct (FIX k eq_refl) as [FL _].
      destruct m; try (apply K; reflexivity); cbn [sem sLen] in FL; unfold no in FL; lia.
    + exists n0. split; [exact En|]. rewrite En in FX. inversion FX as [|n1 x1 ns1 xs1 E1 F1]; subst. rewrite (ONE x eq_refl) in K. destruct (glue_kind (mtc x)) as [[e k']|] eqn:GK; [|contradiction K; reflexivity]. rewrite (i_kind _ _ _ E1 e k' GK). discriminate.
Qed.

(** ** Alternatives *)
Lemma onat_eqb_iff a b : onat_eqb a b = true <-> a = b.
Proof. destruct a, b; cbn; split; intros H; try discriminate; try reflexivity; [apply Nat.eqb_eq in H; congruence|injection H as ->; apply Nat.eqb_refl]. Qed.
Lemma any_len_from k : forall xs os, map sLen xs = map zlen os -> any_len (Z.of_nat k) xs = if forallb (onat_eqb (Some k)) os then Z.of_nat k else (-1)%Z.
Proof.
  induction xs as [|x xs IH]; intros [|o os] E; try discriminate; [reflexivity|]. cbn [map] in E. injection E as E1 E2. cbn [any_len forallb]. destruct (Z.eqb_spec (Z.of_nat k) (-1)); [lia|]. rewrite E1.
  destruct o as [j|]; cbn [zlen onat_eqb]; [|reflexivity]. destruct (Z.eqb_spec (Z.of_nat j) (-1)); [lia|]. destruct (Nat.eqb_spec k j) as [->|N].
  - rewrite Z.eqb_refl. cbn [andb]. apply IH, E2.
  - destruct (Z.eqb_spec (Z.of_nat k) (Z.of_nat j)); [lia|reflexivity].
Qed.
Lemma any_len_after : forall xs os, map sLen xs = map zlen os ->
  (forall before after k, os = before ++ after -> after <> [] -> Forall (fun o => o = None) before -> Forall (fun o => o = Some k) after -> False) -> any_len (-1) xs = (-1)%Z.
Proof.
  induction xs as [|x xs IH]; intros [|o os] E H; try discriminate; [reflexivity|]. cbn [map] in E. injection E as E1 E2. cbn [any_len]. change (-1 =? -1)%Z with true. cbv iota. rewrite E1. destruct o as [k|]; cbn [zlen].
  - rewrite (any_len_from k xs os E2). destruct (forallb (onat_eqb (Some k)) os) eqn:A; [|reflexivity]. exfalso. apply (H [] (Some k :: os) k); [reflexivity|discriminate|constructor|]. constructor; [reflexivity|]. apply Forall_forall. intros o I. rewrite forallb_forall in A. specialize (A o I). apply onat_eqb_iff in A. auto.
  - apply (IH os E2). intros before after k -> Na Fb Fa. apply (H (None :: before) after k); [reflexivity|exact Na|constructor; auto|exact Fa].
Qed.
Lemma any_len_common xs os : map sLen xs = map zlen os ->
  (forall before after k, os = before ++ after -> before <> [] -> after <> [] -> Forall (fun o => o = None) before -> Forall (fun o => o = Some k) after -> False) -> any_len no xs = zlen (common_size os).
Proof.
  intros E H. unfold no. destruct xs as [|x xs], os as [|o os]; try discriminate; [reflexivity|]. cbn [map] in E. injection E as E1 E2. cbn [any_len common_size]. change (-1 =? -1)%Z with true. cbv iota. rewrite E1. destruct o as [k|]; cbn [zlen].
  - rewrite (any_len_from k xs os E2). destruct (forallb _ os); reflexivity.
  - assert (Q : zlen (if forallb (onat_eqb None) os then None else None) = (-1)%Z) by (destruct (forallb _ _); reflexivity). rewrite Q. apply (any_len_after xs os E2). intros before after k -> Na Fb Fa. apply (H (None :: before) after k); [reflexivity|discriminate|exact Na|constructor; auto|exact Fa].
Qed.
Lemma common_all l k : common_size l = Some k -> forall o, In o l -> o = Some k.
Proof.
  destruct l as [|a l]; [discriminate|]. cbn [common_size]. destruct (forallb (onat_eqb a) l) eqn:A; [|discriminate]. intros -> o [<-|I]; [reflexivity|]. rewrite forallb_forall in A. specialize (A o I). apply onat_eqb_iff in A. auto.
Qed.
Lemma map_union_den seps alts xs : Forall2 (pof seps) alts xs -> forall s, dom s -> (unionL (map lg xs) s <-> den seps (group alts) s).
Proof.
  intros F s As. unfold group. rewrite den_anyof. unfold unionL. induction F as [|a x alts xs E F IH]; cbn [map].
  - split; [intros [L [[] _]]|intros [n [[] _]]].
  - split.
    + intros [L [[<-|I] H]]; [exists (NPattern a); split; [left; reflexivity|]; apply (p_den _ _ _ E s As), H|]. destruct (proj1 IH) as [m [Im D]]; [eauto|]. exists m. split; [right; exact Im|exact D].
    + intros [m [[<-|I] D]]; [exists (lg x); split; [left; reflexivity|]; apply (p_den _ _ _ E s As), D|]. destruct (proj2 IH) as [L [IL H]]; [eauto|]. exists L. split; [right; exact IL|exact H].
Qed.
(** Alternatives that share no first and no last item. *)
Lemma group_inj a b : group a = group b -> a = b.
Proof. intros E. injection E as E. revert b E. induction a as [|x a IH]; intros [|y b] E; try discriminate; [reflexivity|]. cbn in E. injection E as -> E. f_equal. apply IH, E. Qed.
Lemma group_members seps alts xs : Forall2 (pof seps) alts xs -> length alts = 1 \/ unshared alts -> exists f, compile_f f (group alts) seps = Some (MAnyOf (map mtc xs)).
Proof.
  intros F D.
  assert (MN : minimizeTreeAnyOf (map NPattern alts) = None).
  { assert (P : forallb is_pattern (map NPattern alts) = true) by (apply forallb_forall; intros c I; apply in_map_iff in I; destruct I as [ns [<- _]]; reflexivity).
    destruct D as [D|[D1 D2]].
    - unfold minimizeTreeAnyOf. rewrite P. cbn [negb]. unfold commonChildren. rewrite map_length, D. reflexivity.
    - apply no_common; [exact P| |]; intros n H; [apply (D1 n)|apply (D2 n)]; intros ns I; apply (H (NPattern ns)); apply in_map, I. }
  assert (MC : Forall (fun p => exists f m0, compile_f f (NPattern (fst p)) seps = Some m0 /\ optimizeMatcher m0 = mtc (snd p)) (combine alts xs)).
  { clear - F. induction F as [|a x alts xs E F IH]; constructor; [destruct (p_comp _ _ _ E) as [f C]; exists f, (mtc x); split; [exact C|apply (p_opt _ _ _ E)]|exact IH]. }
  destruct (map_opt_fuel (fun p => NPattern (fst p)) (fun p => mtc (snd p)) seps _ MC) as [f Hf].
  assert (E1 : map (fun p : list Node * el => NPattern (fst p)) (combine alts xs) = map NPattern alts) by (clear - F; induction F; cbn; congruence).
  assert (E2 : map (fun p : list Node * el => mtc (snd p)) (combine alts xs) = map mtc xs) by (clear - F; induction F; cbn; congruence).
  rewrite E1, E2 in Hf. exists (S f). unfold group. cbn [compile_f]. rewrite MN, Hf. reflexivity.
Qed.
Lemma group_right seps alts xs s : Forall2 (pof seps) alts xs -> dom s -> (s = [] -> forall n, In [n] alts -> ~ blunt n) -> right (sem (MAnyOf (map mtc xs))) (unionL (map lg xs)) s.
Proof.
  intros F Hs HN. cbn [sem]. assert (F2 : Forall2 (fun x L => right x L s) (map sem (map mtc xs)) (map lg xs)).
  { induction F as [|a x alts xs E F IH]; constructor; [apply (p_right _ _ _ E s Hs); intros Es n ->; apply (HN Es n); left; reflexivity|]. apply IH. intros Es n I. apply (HN Es n). right. exact I. }
  destruct (any_match_right _ _ s F2) as [b Hb]. exists b. exact Hb.
Qed.
Lemma iof_group seps alts xs : Forall2 (pof seps) alts xs -> 2 <= length alts -> unshared alts -> (exists a, In a alts /\ a <> []) -> ordered seps alts ->
  (size seps (group alts) = None -> forall n, In [n] alts -> ~ blunt n) -> exists x, iof seps (group alts) x.
Proof.
  intros F L2 D [a0 [I0 N0]] OR NBL. set (m := MAnyOf (map mtc xs)). set (L := unionL (map lg xs)).
  assert (LX : length xs = length alts) by (clear - F; induction F; cbn; congruence).
  assert (Om : optimizeMatcher m = m). { unfold m. destruct xs as [|x1 [|x2 xs]]; [cbn in LX; lia|cbn in LX; lia|reflexivity]. }
  destruct (group_members seps alts xs F (or_intror D)) as [f Cf].
  assert (LM : Len m = zlen (size seps (group alts))).
  { unfold m, Len, group. cbn [sem sLen size]. apply any_len_common.
    - clear - F. induction F as [|a x alts xs E F IH]; cbn [map]; [reflexivity|]. f_equal; [apply (p_len _ _ _ E)|exact IH].
    - intros before after k E Nb Na Fb Fa. rewrite map_map in E. apply map_eq_app in E. destruct E as [b [c [-> [<- <-]]]]. apply (OR b c k eq_refl).
      + intros ->. apply Nb. reflexivity.
      + intros ->. apply Na. reflexivity.
      + rewrite Forall_map in Fb. exact Fb.
      + rewrite Forall_map in Fa. exact Fa. }
  assert (TOT : ~ blunt (group alts) -> forall s, dom s -> right (sem m) L s).
  { intros NB s Hs. apply (group_right seps alts xs s F Hs). intros _ n I B. apply NB. apply (bl_group _ n); [apply (in_map NPattern alts [n] I)|exact B]. }
  assert (EL : elem L (sem m)).
  { destruct (size seps (group alts)) as [k|] eqn:SZ.
    - left. exists k. apply fixed_anyof; [intros E; apply (f_equal (@length _)) in E; rewrite map_length in E; cbn in E; lia|].
      assert (AK : forall a, In a alts -> size seps (NPattern a) = Some k) by (intros a I; apply (common_all _ k SZ); rewrite map_map; apply (in_map (fun a => size seps (NPattern a)) alts a I)).
      assert (K1 : k <> 0). { destruct (Forall2_in_l _ _ _ F a0 I0) as [x0 [_ E0]]. destruct (p_fixed _ _ _ E0 k (AK a0 I0) N0) as [_ [K1 _]]. lia. }
      clear - F AK K1. induction F as [|a x alts xs E F IH]; cbn [map]; constructor.
      + apply (p_fixed _ _ _ E k); [apply AK; left; reflexivity|]. intros ->. specialize (AK [] (or_introl eq_refl)). cbn in AK. congruence.
      + apply IH. intros b I. apply AK. right. exact I.
    - right. split; [unfold Len in LM; exact LM|]. split; [|apply loose_union; clear - F; induction F as [|a x alts xs E F IH]; constructor; [apply (p_loose _ _ _ E)|exact IH]]. intros s Hs. apply (group_right seps alts xs s F Hs). intros _. apply NBL. reflexivity. }
  exists (m, L). split; cbn [mtc lg fst snd]; auto; try discriminate.
  - split; cbn [mtc lg fst snd]; auto; try (unfold m; discriminate).
  - intros s Hs. apply map_union_den; assumption.
  - exists f, m. split; [exact Cf|exact Om].
  - intros SE. assert (SC : (exists k, size seps (group alts) = Some k) \/ forall a, In a alts -> searchable seps (NPattern a)).
    { inversion SE as [? k Ek| | | | | |cs Uc Hc E]; subst; [left; eauto|]. right. assert (cs = alts) as -> by (apply group_inj; unfold group; congruence). exact Hc. }
    destruct SC as [[k Ek]|SC].
    + rewrite Ek in LM. destruct EL as [[j Fj]|[Q _]]; [apply (fixed_pref j), Fj|]. unfold Len in LM. rewrite LM in Q. cbn in Q. lia.
    + apply pref_anyof. clear - F SC. induction F as [|a x alts xs E F IH]; cbn [map]; constructor; [apply (p_pref _ _ _ E), SC; left; reflexivity|]. apply IH. intros b I. apply SC. right. exact I.
  - exact I.
Qed.
(** ** Alternatives that share a beginning or an end *)
Definition solid (m : Matcher) : Prop := match m with MAnyOf _ | MRow _ _ => True | _ => False end.
Lemma solid_kind m : solid m -> glue_kind m = None.
Proof. destruct m; cbn; intros H; try contradiction; reflexivity. Qed.
Lemma kinds_none e ms m : In m ms -> glue_kind m = None -> glue_kinds e ms = None.
Proof.
  induction ms as [|m' ms IH]; intros I K; [destruct I|]. cbn [glue_kinds]. destruct I as [->|I]; [rewrite K; reflexivity|]. rewrite (IH I K). destruct (glue_kind m') as [[s k]|]; [|reflexivity]. destruct (zs_eqb s e); reflexivity.
Qed.
Lemma every_solid ms m : In m ms -> solid m -> glueMatchersAsEvery ms = None.
Proof.
  intros I K. destruct (glueMatchersAsEvery ms) as [g|] eqn:E; [|reflexivity]. destruct (every_kinds ms g E) as [e [ks [_ Q]]]. rewrite (kinds_none e ms m I (solid_kind m K)) in Q. discriminate.
Qed.
Lemma minimize_solid : forall fuel ms, Exists solid ms -> Exists solid (minimize_f fuel ms).
Proof.
  induction fuel as [|f IH]; intros ms X; cbn [minimize_f]; [exact X|].
  pose proof (consider_spec ms (slices (length ms)) None) as CS. destruct (fold_left (consider ms) (slices (length ms)) None) as [[[d l] r]|]; [|exact X].
  destruct CS as [CS|[In0 GL]]; [discriminate|]. apply in_slices in In0. destruct In0 as [Hl Hr]. pose proof (slice_split ms l r Hl Hr) as SP.
  set (a := firstn l ms) in *. set (mid := firstn (r - l) (skipn l ms)) in *. set (c := skipn r ms) in *. clearbody a mid c.
  assert (X' : Exists solid (a ++ d :: c)).
  { rewrite SP in X. apply Exists_app in X. apply Exists_app. destruct X as [X|X]; [left; exact X|]. right. apply Exists_app in X. destruct X as [X|X]; [apply Exists_cons_hd|apply Exists_cons_tl; exact X].
    apply Exists_exists in X. destruct X as [m [I K]]. unfold glueMatchers in GL. rewrite (every_solid mid m I K) in GL. unfold glueMatchersAsRow in GL. destruct (_ <=? _); [discriminate|]. destruct (existsb _ mid); [discriminate|]. injection GL as <-. exact Logic.I. }
  destruct (_ =? _); [exact X'|]. apply IH; assumption.
Qed.
(** A sequence of two or more with alternatives in it. *)
Lemma solid_seq xs os m : Forall good xs -> chain xs -> 2 <= length xs -> Exists solid (map mtc xs) -> ~ text_stars_text (map mtc xs) -> map (fun x => Len (mtc x)) xs = map zlen os ->
  option_map optimizeMatcher (compileMatchers (minimizeMatchers (map mtc xs))) = Some m ->
  Len m = zlen (total_size os) /\ glue_kind m = None /\ match m with MPrefix _ | MSuffix _ | MText _ | MSuper => False | _ => True end.
Proof.
  intros G C L2 X NT LO Cm. assert (Nx : xs <> []) by (destruct xs; [cbn in L2; lia|discriminate]).
  assert (TS : match total_size os with
    | Some k => Forall (fun m => (0 <= Len m)%Z) (map mtc xs) /\ sum_len (map mtc xs) = Z.of_nat k
    | None => Exists (fun m => Len m = (-1)%Z) (map mtc xs) end).
  { clear - LO. revert os LO. induction xs as [|x xs IH]; intros [|o os] LO; try discriminate; cbn [map total_size] in *; [split; [constructor|reflexivity]|]. injection LO as L LO. specialize (IH os LO). destruct o as [k|]; cbn [zlen] in L.
    - destruct (total_size os) as [j|].
      + destruct IH as [A B]. split; [constructor; [lia|exact A]|]. cbn [sum_len fold_right]. fold (sum_len (map mtc xs)). lia.
      + apply Exists_cons_tl, IH.
    - apply Exists_cons_hd, L. }
  assert (GE : glueMatchersAsEvery (map mtc xs) = None) by (apply Exists_exists in X; destruct X as [m0 [I K]]; apply (every_solid _ m0 I K)).
  destruct (total_size os) as [k|].
  - destruct TS as [FL SL].
    assert (GR : glueMatchers (map mtc xs) = Some (MRow (map mtc xs) (sum_len (map mtc xs)))).
    { unfold glueMatchers. rewrite GE. unfold glueMatchersAsRow. rewrite map_length. destruct (Nat.leb_spec (length xs) 1); [lia|]. rewrite (proj2 (existsb_false_iff _ _)); [reflexivity|]. intros m0 I. rewrite Forall_forall in FL. specialize (FL m0 I). apply Z.eqb_neq. lia. }
    rewrite (minimize_whole _ _ (good_noempty xs G) GR ltac:(right; split; [exact FL|reflexivity])) in Cm. cbn in Cm. injection Cm as <-. split; [exact SL|]. split; [reflexivity|exact I].
  - pose proof (seq_good xs m G C Nx NT Cm) as GM. unfold minimizeMatchers, compileMatchers in Cm. rewrite map_length in Cm.
    pose proof (minimize_unknown (length xs) _ (good_noempty xs G) TS) as UN. pose proof (minimize_solid (length xs) _ X) as SO.
    destruct (minimize_spec (length xs) xs G C (le_n _)) as [ys [Y1 [Y2 [Y3 [Y4 [Y5 [Y6 [Y7 Y8]]]]]]]]. rewrite <- Y1 in UN, SO, Cm. rewrite map_length in Cm. specialize (Y8 Nx).
    destruct (compile_res (length ys) ys Y2 Y3 Y4 Y8 (le_n _)) as [m' [Cm' R]]. rewrite Cm' in Cm. cbn [option_map] in Cm. injection Cm as <-. destruct (Nat.le_gt_cases 2 (length ys)) as [L|L].
    + assert (LN : Len (optimizeMatcher m') = (-1)%Z) by (apply (r_opt _ _ R L); intros B; apply NT, Y7, bad_stars, B). split; [exact LN|].
      assert (ONE : forall m0, map mtc ys = [m0] -> False) by (intros m0 E; apply (f_equal (@length _)) in E; rewrite map_length in E; cbn in E; lia).
      assert (NS : optimizeMatcher m' <> MSuper) by (intros O; apply (ONE _ (r_super _ _ R O))).
      assert (NA : forall e, optimizeMatcher m' <> MAny e) by (intros e O; apply (ONE _ (r_any _ _ R e O))).
      assert (NP : forall p, optimizeMatcher m' <> MPrefix p) by (intros p O; destruct (r_prefix _ _ R p O) as [E|E]; [|apply (ONE _ E)]; rewrite E in SO; apply Exists_exists in SO; destruct SO as [m2 [[<-|[<-|[]]] HS]]; exact HS).
      assert (NF : forall p, optimizeMatcher m' <> MSuffix p) by (intros p O; destruct (r_suffix _ _ R p O) as [E|E]; [|apply (ONE _ E)]; rewrite E in SO; apply Exists_exists in SO; destruct SO as [m2 [[<-|[<-|[]]] HS]]; exact HS).
      destruct (optimizeMatcher m'); cbn [glue_kind]; try (split; [reflexivity|exact I]); exfalso.
      all: try (apply NS; reflexivity). all: try (eapply NA; reflexivity). all: try (eapply NP; reflexivity). all: try (eapply NF; reflexivity). all: unfold Len in LN; cbn in LN; lia.
    + destruct ys as [|y [|? ?]]; [contradiction|clear L|cbn in L; lia]. rewrite (r_one _ _ R y eq_refl) in *. inversion Y2 as [|? ? Gy _]; subst. rewrite (g_opt y Gy) in *.
      apply Exists_exists in UN. destruct UN as [m1 [[<-|[]] HU]]. apply Exists_exists in SO. destruct SO as [m2 [[<-|[]] HS]]. split; [exact HU|]. split; [apply solid_kind, HS|]. destruct (mtc y); cbn in HS; try contradiction; exact I.
Qed.
Definition els (ns : list Node) (x : el) : list el := match ns with [] => [] | _ => [x] end.
Lemma block_pof seps ns x : pof seps ns x -> ns <> [] -> exists b, block ns = [b] /\ wrap ns = [NPattern ns] /\ els ns x = [x] /\ size seps b = size seps (NPattern ns) /\ (forall s, den seps b s <-> den seps (NPattern ns) s)
  /\ (searchable seps b -> searchable seps (NPattern ns)) /\ (glue_kind (mtc x) <> None -> size seps b = None \/ excluded seps b <> None).
Proof.
  intros P N. destruct ns as [|n [|n' ns]]; [contradiction N; reflexivity| |].
  - exists n. split; [reflexivity|]. split; [reflexivity|]. split; [reflexivity|]. assert (SZ : size seps (NPattern [n]) = size seps n) by (cbn [size uniform map total_size]; destruct (size seps n); [rewrite Nat.add_0_r|]; reflexivity).
    split; [congruence|]. split; [intros s; rewrite den_pattern, cat_one; reflexivity|]. split; [apply se_one|]. intros K. destruct (p_glue _ _ _ P K) as [Q|[n1 [E Q]]]; [left; congruence|right; injection E as <-; exact Q].
  - exists (NPattern (n :: n' :: ns)). split; [reflexivity|]. split; [reflexivity|]. split; [reflexivity|]. split; [reflexivity|]. split; [intros s; reflexivity|]. split; [auto|]. intros K. destruct (p_glue _ _ _ P K) as [Q|[n1 [E Q]]]; [left; exact Q|discriminate].
Qed.
Definition cof (seps : list Z) (n : Node) (x : el) : Prop := (exists f m, compile_f f n seps = Some m /\ optimizeMatcher m = mtc x) /\ (forall s, dom s -> (lg x s <-> den seps n s)).
Lemma cof_compile seps ns xs : Forall2 (cof seps) ns xs -> ns <> [] -> exists f, compile_f f (NPattern ns) seps = option_map optimizeMatcher (compileMatchers (minimizeMatchers (map mtc xs))).
Proof.
  intros F Ne. assert (MC : Forall (fun p => exists f m0, compile_f f (fst p) seps = Some m0 /\ optimizeMatcher m0 = mtc (snd p)) (combine ns xs)).
  { clear - F. induction F as [|n x ns xs E F IH]; constructor; [apply E|exact IH]. }
  destruct (map_opt_fuel fst (fun p => mtc (snd p)) seps _ MC) as [f Hf].
  assert (E1 : map (@fst Node el) (combine ns xs) = ns) by (clear - F; induction F; cbn; congruence).
  assert (E2 : map (fun p : Node * el => mtc (snd p)) (combine ns xs) = map mtc xs) by (clear - F; induction F; cbn; congruence).
  rewrite E1, E2 in Hf. exists (S f). cbn [compile_f]. destruct ns as [|n ns]; [contradiction|]. rewrite Hf. reflexivity.
Qed.
Lemma cof_lang seps ns xs : Forall2 (cof seps) ns xs -> forall s, dom s -> (catL (map lg xs) s <-> cat seps ns s).
Proof.
  induction 1 as [|n x ns xs E F IH]; intros s As; cbn [map catL cat]; [reflexivity|].
  split; intros [u [v [-> [A B]]]]; apply dom_app in As; destruct As as [Au Av]; exists u, v; (split; [reflexivity|]); (split; [apply (proj2 E u Au), A|apply (IH v Av), B]).
Qed.
Lemma group_anyof seps rests x : iof seps (group rests) x -> unshared rests -> 2 <= length rests -> exists ms, mtc x = MAnyOf ms.
Proof.
  intros E [D1 D2] L2. destruct (i_comp _ _ _ E) as [f [m [C O]]]. destruct f as [|f]; [discriminate|]. unfold group in C. cbn [compile_f] in C.
  assert (MN : minimizeTreeAnyOf (map NPattern rests) = None).
  { assert (P : forallb is_pattern (map NPattern rests) = true) by (apply forallb_forall; intros c I; apply in_map_iff in I; destruct I as [ns [<- _]]; reflexivity).
    apply no_common; [exact P| |]; intros n H; [apply (D1 n)|apply (D2 n)]; intros ns I; apply (H (NPattern ns)); apply in_map, I. }
  rewrite MN in C. destruct (map_opt _ (map NPattern rests)) as [ms|] eqn:M; [|discriminate]. injection C as <-. exists ms. rewrite <- O.
  assert (LM : length ms = length rests). { rewrite <- (map_length NPattern rests). clear - M. revert ms M. generalize (map NPattern rests) as l. induction l as [|n l IH]; intros ms M; cbn [map_opt] in M; [injection M as <-; reflexivity|].
    destruct (option_map optimizeMatcher (compile_f f n seps)); [|discriminate]. destruct (map_opt _ l) as [ys|]; [|discriminate]. injection M as <-. cbn. f_equal. apply IH. reflexivity. }
  destruct ms as [|m1 [|m2 ms]]; [cbn in LM; lia|cbn in LM; lia|reflexivity].
Qed.
Lemma iof_shared seps pre post rests xp xg xq : pre ++ post <> [] -> ~ In [] rests -> NoDup rests -> unshared rests -> iof seps (group rests) xg -> pof seps pre xp -> pof seps post xq ->
  row seps (block pre ++ [group rests] ++ block post) -> size seps (group (sharing pre post rests)) = total_size (map (size seps) (block pre ++ [group rests] ++ block post)) ->
  exists x, iof seps (group (sharing pre post rests)) x.
Proof.
  intros NP NN ND U EG EP EQ RW SZ. pose proof (minimize_shared pre post rests U NN ND NP) as MT.
  assert (L2 : 2 <= length rests).
  { destruct U as [U _]. destruct rests as [|a [|b t]]; [exfalso; apply (U NNothing); intros a []| |cbn; lia]. exfalso. destruct a as [|x a]; [apply NN; left; reflexivity|]. apply (U x). intros a' [<-|[]]. reflexivity. }
  destruct (group_anyof seps rests xg EG U L2) as [ms Eg].
  set (xs := els pre xp ++ [xg] ++ els post xq). set (bs := block pre ++ [group rests] ++ block post) in *.
  assert (PB : pre = [] \/ pre <> []) by (destruct pre; [left; reflexivity|right; discriminate]). assert (QB : post = [] \/ post <> []) by (destruct post; [left; reflexivity|right; discriminate]).
  assert (Lx : 2 <= length xs). { unfold xs. rewrite !app_length. destruct pre as [|? ?]; [destruct post as [|? ?]; [contradiction NP; reflexivity|]|]; cbn [els length]; lia. }
  assert (G : Forall good xs).
  { unfold xs. apply Forall_app. split; [destruct PB as [->|Hp]; [constructor|]; destruct pre; [contradiction Hp; reflexivity|]; constructor; [apply (p_good _ _ _ EP Hp)|constructor]|].
    apply Forall_app. split; [constructor; [apply (i_good _ _ _ EG)|constructor]|]. destruct QB as [->|Hq]; [constructor|]; destruct post; [contradiction Hq; reflexivity|]; constructor; [apply (p_good _ _ _ EQ Hq)|constructor]. }
  assert (FC : Forall2 (cof seps) (wrap pre ++ [group rests] ++ wrap post) xs).
  { assert (W : forall ns x, pof seps ns x -> Forall2 (cof seps) (wrap ns) (els ns x)).
    { intros ns x P. destruct ns as [|n ns]; [constructor|]. unfold wrap. cbn [length Nat.eqb els]. constructor; [|constructor]. split; [destruct (p_comp _ _ _ P) as [f C]; exists f, (mtc x); split; [exact C|apply (p_opt _ _ _ P)]|apply (p_den _ _ _ P)]. }
    unfold xs. apply Forall2_app; [apply W, EP|]. apply Forall2_app; [|apply W, EQ]. constructor; [|constructor]. split; [apply (i_comp _ _ _ EG)|apply (i_den _ _ _ EG)]. }
  assert (AP : forall b, block pre = [b] -> pre <> [] -> follows seps b (group rests) -> adj xp xg).
  { intros b Eb Hp [A [B C]]. destruct (block_pof seps pre xp EP Hp) as [b' [Eb' [_ [_ [S1 [S2 [S3 S4]]]]]]]. rewrite Eb in Eb'. injection Eb' as <-. split.
    - intros e k k' _ K. rewrite Eg in K. discriminate.
    - intros X Y. exfalso. apply (p_den _ _ _ EP [] ltac:(constructor)) in X. apply (i_den _ _ _ EG [] ltac:(constructor)) in Y. destruct (B (proj2 (S2 []) X) Y) as [_ [[S0|S0] _]]; discriminate S0.
    - intros X Y. apply (p_pref _ _ _ EP), S3, C; [rewrite S1; apply zlen_none; rewrite <- (p_len _ _ _ EP); exact X|]. left. destruct Y as [Y|Y]; [apply zlen_none; rewrite <- (i_len _ _ _ EG); exact Y|rewrite Eg in Y; contradiction Y; reflexivity].
    - rewrite Eg. split; intros; discriminate. }
  assert (AQ : forall b, block post = [b] -> post <> [] -> follows seps (group rests) b -> adj xg xq).
  { intros b Eb Hq [A [B C]]. destruct (block_pof seps post xq EQ Hq) as [b' [Eb' [_ [_ [S1 [S2 [S3 S4]]]]]]]. rewrite Eb in Eb'. injection Eb' as <-. split.
    - intros e k k' K _. rewrite Eg in K. discriminate.
    - intros X Y. exfalso. apply (p_den _ _ _ EQ [] ltac:(constructor)) in Y. apply (i_den _ _ _ EG [] ltac:(constructor)) in X. destruct (B X (proj2 (S2 []) Y)) as [[S0|S0] _]; discriminate S0.
    - intros X Y. apply (i_pref _ _ _ EG), C; [apply zlen_none; rewrite <- (i_len _ _ _ EG); exact X|]. destruct Y as [Y|Y]; [left; rewrite S1; apply zlen_none; rewrite <- (p_len _ _ _ EQ); exact Y|apply S4, Y].
    - rewrite Eg. split; intros; discriminate. }
  assert (CQ : row seps ([group rests] ++ block post) -> chain ([xg] ++ els post xq)).
  { intros R. destruct QB as [->|Hq]; [exact I|]. destruct (block_pof seps post xq EQ Hq) as [b [Eb [_ [Ee _]]]]. rewrite Ee. rewrite Eb in R. cbn [app row chain] in *. split; [apply (AQ b Eb Hq), R|exact I]. }
  assert (C : chain xs).
  { unfold xs. unfold bs in RW. destruct PB as [->|Hp]; [apply CQ, RW|]. destruct (block_pof seps pre xp EP Hp) as [b [Eb [_ [Ee _]]]]. rewrite Ee. rewrite Eb in RW. cbn [app] in *. destruct RW as [R1 R2].
    change (adj xp xg /\ chain ([xg] ++ els post xq)). split; [apply (AP b Eb Hp R1)|apply CQ, R2]. }
  assert (LO : map (fun x => Len (mtc x)) xs = map zlen (map (size seps) bs)).
  { assert (W : forall ns x, pof seps ns x -> map (fun x => Len (mtc x)) (els ns x) = map zlen (map (size seps) (block ns))).
    { intros ns x P. destruct ns as [|n ns]; [reflexivity|]. destruct (block_pof seps (n :: ns) x P ltac:(discriminate)) as [b [Eb [_ [Ee [S1 _]]]]]. rewrite Eb, Ee. cbn [map]. f_equal. rewrite S1. apply (p_len _ _ _ P). }
    unfold xs, bs. rewrite !map_app. f_equal; [apply W, EP|]. f_equal; [|apply W, EQ]. cbn [map]. f_equal. apply (i_len _ _ _ EG). }
  assert (SO : Exists solid (map mtc xs)). { unfold xs. rewrite !map_app. apply Exists_app. right. apply Exists_cons_hd. rewrite Eg. exact I. }
  assert (NT : ~ text_stars_text (map mtc xs)).
  { intros [p [mid [q [Em [_ Fm]]]]]. apply Exists_exists in SO. destruct SO as [m0 [I0 S0]]. rewrite Em in I0. destruct I0 as [<-|I0]; [exact S0|]. apply in_app_or in I0. destruct I0 as [I0|[<-|[]]]; [|exact S0]. rewrite Forall_forall in Fm. rewrite (Fm m0 I0) in S0. exact S0. }
  assert (Nx : xs <> []) by (destruct xs; [cbn in Lx; lia|discriminate]).
  destruct (seq_right xs G C Nx) as [m [Cm [R [_ O]]]]. specialize (R NT). pose proof (seq_good xs m G C Nx NT Cm) as GM.
  destruct (solid_seq xs (map (size seps) bs) m G C Lx SO NT LO Cm) as [LM [GK SH]].
  destruct (cof_compile seps _ xs FC) as [f Cf]; [destruct (wrap pre); discriminate|]. rewrite Cm in Cf.
  assert (EA : map NPattern (sharing pre post rests) = map (fun r => NPattern (pre ++ r ++ post)) rests) by (unfold sharing; rewrite map_map; reflexivity).
  exists (m, catL (map lg xs)). split; cbn [mtc lg fst snd].
  - exact GM.
  - intros s Hs. rewrite (cof_lang seps _ xs FC s Hs). unfold group. rewrite EA. rewrite <- (factored_den _ _ seps s MT). rewrite den_pattern. reflexivity.
  - exists (S f), m. split; [|exact O]. unfold group. rewrite EA. cbn [compile_f]. rewrite MT. exact Cf.
  - intros e k K. rewrite GK in K. discriminate.
  - discriminate.
  - rewrite LM, SZ. reflexivity.
  - intros SE. assert (SC : exists k, size seps (group (sharing pre post rests)) = Some k).
    { inversion SE as [? k Ek| | | | | |cs Uc Hc E]; subst; [eauto|]. exfalso. assert (cs = sharing pre post rests) as -> by (apply group_inj; unfold group; congruence). destruct Uc as [U1 U2]. unfold sharing in U1, U2. destruct pre as [|n pre].
      - destruct post as [|n post _] using rev_ind; [contradiction NP; reflexivity|]. apply (U2 n). intros a I0. apply in_map_iff in I0. destruct I0 as [r [<- _]]. cbn [app]. rewrite app_assoc, rev_unit. reflexivity.
      - apply (U1 n). intros a I0. apply in_map_iff in I0. destruct I0 as [r [<- _]]. reflexivity. }
    destruct SC as [k Ek]. rewrite SZ in Ek. rewrite Ek in LM. apply (fixed_pref k). apply (good_sized (m, catL (map lg xs)) k GM LM).
  - intros t E. rewrite E in SH. contradiction.
  - intros E. rewrite E in SH. contradiction.
  - intros _ s Hs. apply R; [exact Hs|]. right. intros x E. rewrite E in Lx. cbn in Lx. lia.
  - destruct m; try contradiction; exact I.
Qed.
Lemma list_choice {A B} (R : A -> B -> Prop) l : (forall a, In a l -> exists b, R a b) -> exists l', Forall2 R l l'.
Proof. intros H. apply Forall_exists2. apply Forall_forall. exact H. Qed.
Lemma item_iof seps n : ascii seps -> item seps n -> exists x, iof seps n x.
Proof.
  intros As I. induction I as [n Lf|alts L2 D NE _ IH FT OR NBL|pre post rests NP NN ND U _ [xg EG] _ IH FP FQ RW SZ]; [apply iof_leaf; assumption| |].
  - destruct (list_choice (pof seps) alts) as [xs F].
  { intros a Ia. destruct (list_choice (iof seps) a) as [ys FY]; [intros n In0; apply (IH a n Ia In0)|]. rewrite Forall_forall in FT. apply (phrase_compiled seps a ys FY (FT a Ia)). }
  apply (iof_group seps alts xs); assumption.
  - destruct (list_choice (iof seps) pre) as [yp FYP]; [intros n I; apply IH, in_or_app; left; exact I|]. destruct (phrase_compiled seps pre yp FYP FP) as [xp EP].
    destruct (list_choice (iof seps) post) as [yq FYQ]; [intros n I; apply IH, in_or_app; right; exact I|]. destruct (phrase_compiled seps post yq FYQ FQ) as [xq EQ].
    apply (iof_shared seps pre post rests xp xg xq); assumption.
Qed.
Lemma items_phrase seps ns : ascii seps -> Forall (item seps) ns -> fits seps ns -> exists x, pof seps ns x.
Proof.
  intros As F T. destruct (list_choice (iof seps) ns) as [xs FX]; [intros n I; rewrite Forall_forall in F; apply item_iof; auto|]. apply (phrase_compiled seps ns xs FX T).
Qed.
End Nest.
