(** * The terms of a pattern as elements of a sequence (proofs for C46). *)
From Coq Require Import String.
From Coq Require Import ZArith Arith List Bool Lia.
From Verif Require Import Utf8 GoStr GlobLex GlobMatch GlobCompile GlobSpec GlobFragment GlobFactor GlobSem GlobGlue.
Import ListNotations.
Open Scope nat_scope.

Lemma is_char_ascii s c : ascii s -> (is_char s c <-> s = [c]).
Proof.
  intros As. split.
  - intros [V ->]. pose proof (decode_encode c [] V) as D. rewrite app_nil_r in D. pose proof (encode_nonempty c) as NE. destruct (encode c) as [|b e] eqn:E; [contradiction|].
    inversion As as [|? ? B _]; subst. rewrite decode_ascii in D by exact B. injection D as <- L. destruct e; [reflexivity|discriminate].
  - intros ->. inversion As as [|? ? B _]; subst. split; [apply valid_ascii, B|]. symmetry. apply encode_ascii, B.
Qed.
Lemma is_char_low s c : (0 <= c < 128)%Z -> (is_char s c <-> s = [c]).
Proof.
  intros B. split; [intros [_ ->]; apply encode_ascii, B|]. intros ->. split; [apply valid_ascii, B|]. symmetry. apply encode_ascii, B.
Qed.
(** The characters of any byte string avoid ASCII characters exactly if its bytes do. *)
Lemma runes_avoid e s : ascii e -> (Forall (fun c => ~ In c e) (runes s) <-> Forall (fun c => ~ In c e) s).
Proof.
  intros Ae. assert (K : forall l, Forall (fun c => ~ In c e) l <-> filter (inRunes e) l = []).
  { induction l as [|c l IH]; cbn [filter]; [split; auto|]. pose proof (inRunes_iff e c) as R. destruct (inRunes e c).
    - split; [intros H; inversion H as [|? ? H1 _]; subst; exfalso; apply H1, R; reflexivity|discriminate].
    - rewrite <- IH. split; [intros H; inversion H; assumption|]. intros H. constructor; [intros I; apply R in I; discriminate|exact H]. }
  rewrite !K, runes_ascii; [reflexivity|]. intros b Hb. apply not_true_iff_false. intros I. apply inRunes_iff in I. unfold ascii in Ae. rewrite Forall_forall in Ae. apply Ae in I. lia.
Qed.
Section Leaf.
Context {md : Mode}.
Record elof (seps : list Z) (n : Node) (x : el) : Prop := {
  e_good : good x;
  e_den : forall s, dom s -> (lg x s <-> den seps n s);
  e_comp : exists f m, compile_f f n seps = Some m /\ optimizeMatcher m = mtc x;
  e_kind : forall e k, glue_kind (mtc x) = Some (e, k) -> excluded seps n = Some e;
  e_star : lg x [] -> star n;
  e_starkind : star n -> exists e k, excluded seps n = Some e /\ glue_kind (mtc x) = Some (e, k);
  e_len : Len (mtc x) = (-1)%Z -> star n \/ variable n;
  e_pref : Len (mtc x) = (-1)%Z -> (n = NAny -> length seps <= 1) -> pref (lg x) (sem (mtc x));
  e_text : forall t, mtc x = MText t <-> literal n = Some t;
  e_super : mtc x = MSuper <-> wide seps n;
  e_width : forall k, width n = Some k -> fixed k (lg x) (sem (mtc x));
  e_total : ~ negative n -> total x;
  e_plain : match mtc x with MPrefix _ | MSuffix _ => False | _ => True end }.
Lemma elof_adj seps n n' x y : elof seps n x -> elof seps n' y -> may_follow seps n n' -> adj x y.
Proof.
  intros X Y [A [B C]]. split.
  - intros e a b Ea Eb. apply (A e); [apply (e_kind _ _ _ X _ _ Ea)|apply (e_kind _ _ _ Y _ _ Eb)].
  - intros Nx Ny. apply (e_star _ _ _ X) in Nx. apply (e_star _ _ _ Y) in Ny. specialize (B Nx Ny).
    destruct (e_starkind _ _ _ X Nx) as [e [k [E1 E2]]]. destruct (e_starkind _ _ _ Y Ny) as [e' [k' [E3 E4]]]. rewrite B, E3 in E1. injection E1 as ->. eauto.
  - intros Lx Ly. apply (e_pref _ _ _ X Lx). intros ->. destruct (Nat.le_gt_cases (length seps) 1) as [H|H]; [exact H|]. exfalso. destruct (C eq_refl H) as [C1 C2].
    destruct Ly as [Ly|Ly].
    + destruct (e_len _ _ _ Y Ly) as [S1|V]; [|contradiction]. destruct (e_starkind _ _ _ Y S1) as [e [k [E1 _]]]. congruence.
    + destruct (glue_kind (mtc y)) as [[e k]|] eqn:G; [|contradiction]. rewrite (e_kind _ _ _ Y _ _ G) in C1. discriminate.
  - pose proof (e_plain _ _ _ X) as PX. pose proof (e_plain _ _ _ Y) as PY. split; intros p t E E'; [rewrite E in PX; exact PX|rewrite E' in PY; exact PY].
Qed.
(** A fixed element whose Match is right on the empty string too. *)
Lemma fixed_total k L m : fixed k L (sem m) -> Match m [] = Some false -> forall s, dom s -> right (sem m) L s.
Proof.
  intros F E s As. destruct s as [|c s]; [|apply F; [exact As|discriminate]]. exists false. split; [exact E|]. split; [discriminate|]. intros H. exfalso. apply (fixed_null _ _ _ F H).
Qed.
Lemma fixed_len k L m : fixed k L (sem m) -> Len m <> (-1)%Z.
Proof. intros [E _]. unfold Len. rewrite E. lia. Qed.
(** Elements of fixed width. *)
Lemma fixed_elof seps n m L k : width n = Some k -> fixed k L (sem m) -> optimizeMatcher m = m -> match m with MPrefix _ | MSuffix _ => False | _ => True end ->
  (forall t, m = MText t -> forall s, L s <-> s = t) -> (forall e g, glue_kind m = Some (e, g) -> ascii e /\ g = GOne /\ ~ is_bytes /\ (forall s, L s <-> oneL e s) /\ excluded seps n = Some e) ->
  (forall s, dom s -> (L s <-> den seps n s)) -> (exists f m0, compile_f f n seps = Some m0 /\ optimizeMatcher m0 = m) -> (forall t, m = MText t <-> literal n = Some t) ->
  (~ negative n -> Match m [] = Some false) -> elof seps n (m, L).
Proof.
  intros W F O P T G D C X N.
  assert (NS : ~ star n) by (intros [->| ->]; discriminate W).
  split; cbn [mtc lg fst snd]; auto.
  - split; cbn [mtc lg fst snd]; auto; [left; eauto|]. intros e g E. destruct (G e g E) as [A [-> [B [C0 _]]]]. auto.
  - intros e g E. apply (G e g E).
  - intros E. exfalso. apply (fixed_null _ _ _ F E).
  - intros S0. contradiction.
  - intros E. exfalso. apply (fixed_len _ _ _ F E).
  - intros E. exfalso. apply (fixed_len _ _ _ F E).
  - split; [intros E; exfalso; rewrite E in F; apply (fixed_len _ _ _ F); reflexivity|]. intros [->|[-> _]]; discriminate W.
  - intros k' E. rewrite W in E. injection E as <-. exact F.
  - intros NN s As. apply (fixed_total k L m F (N NN) s As).
Qed.
Lemma elof_leaf seps n : ascii seps -> leaf n -> (is_bytes -> ~ negative_leaf n) -> exists x, elof seps n x.
Proof.
  intros As Lf Pos. assert (NB : negative_leaf n -> ~ is_bytes) by (intros Ng B; apply (Pos B), Ng). clear Pos. destruct n as [|ns|not cs|not lo hi|t| | | |ns]; try contradiction.
  - (* class *) destruct Lf as [Ac Nc]. pose proof (runes_all_ascii cs Ac) as R. destruct not.
    + exists (MList cs true, oneL cs). apply (fixed_elof seps (NList true cs) _ _ 1 eq_refl (fixed_list_not cs (NB I))); auto; try discriminate.
      * destruct cs as [|? [|? ?]]; reflexivity.
      * intros e g E. cbn in E. injection E as <- <-. cbn [excluded]. rewrite R. pose proof (NB I). split; [exact Ac|]. repeat (split; [first [reflexivity|assumption]|]). reflexivity.
      * intros s Hs. cbn [den]. rewrite R. apply dom_ascii in Hs; [|exact (NB I)]. split; [intros [c [-> H]]; exists c; split; [apply (proj2 (is_char_ascii _ _ Hs)); reflexivity|exact H]|]. intros [c [H1 H2]]. apply (proj1 (is_char_ascii _ _ Hs)) in H1. exists c. auto.
      * exists 1, (MList cs true). cbn [compile_f]. rewrite R. destruct cs as [|c [|? ?]]; auto.
      * intros t. destruct cs as [|? [|? ?]]; split; discriminate.
      * intros NN. exfalso. apply NN. left. exact I.
    + assert (Ld : forall s, ((exists c, s = [c] /\ In c cs) <-> den seps (NList false cs) s)).
      { intros s. cbn [den]. rewrite R. split; [intros [c [-> H]]; exists c; split; [apply is_char_low; [unfold ascii in Ac; rewrite Forall_forall in Ac; auto|reflexivity]|exact H]|]. intros [c [H1 H2]]. apply is_char_low in H1; [exists c; auto|]. unfold ascii in Ac. rewrite Forall_forall in Ac. auto. }
      destruct cs as [|c [|c' cs]]; [contradiction Nc; reflexivity| |].
      * assert (LE : forall s, (fun s => s = [c]) s <-> (fun s => exists c0, s = [c0] /\ In c0 [c]) s) by (intros s; split; [intros ->; exists c; split; [reflexivity|left; reflexivity]|intros [c0 [-> [->|[]]]]; reflexivity]).
        exists (MText [c], fun s => s = [c]). apply (fixed_elof seps (NList false [c]) _ _ 1 eq_refl (fixed_text [c] Ac ltac:(discriminate))); auto; try discriminate.
        -- intros t E s. injection E as <-. reflexivity.
        -- intros s Hs. rewrite <- (Ld s). apply LE.
        -- exists 1, (MText [c]). cbn [compile_f]. rewrite R. split; [|reflexivity]. cbn [optimizeMatcher]. rewrite encode_ascii by (inversion Ac; assumption). reflexivity.
        -- intros t. cbn. split; congruence.
      * exists (MList (c :: c' :: cs) false, fun s => exists c0, s = [c0] /\ In c0 (c :: c' :: cs)). apply (fixed_elof seps (NList false (c :: c' :: cs)) _ _ 1 eq_refl (fixed_list _ (fun _ => Ac))); auto; try discriminate.
        -- exists 1, (MList (c :: c' :: cs) false). cbn [compile_f]. rewrite R. auto.
        -- split; discriminate.
        -- intros _. cbn [Match sem sMatch]. unfold Match. cbn [sem sMatch one_rune decode]. assert (E : inRunes (c :: c' :: cs) RuneError = false).
           { apply not_true_iff_false. rewrite inRunes_iff. intros I0. unfold ascii in Ac. rewrite Forall_forall in Ac. apply Ac in I0. unfold RuneError in I0. lia. }
           unfold one_rune. cbn [decode]. cbn [length Nat.ltb Nat.leb]. rewrite E. reflexivity.
  - (* range *) destruct Lf as [L0 H0]. destruct not.
    + exists (MRange lo hi true, fun s => exists c, s = [c] /\ ~ (lo <= c <= hi)%Z). apply (fixed_elof seps (NRange true lo hi) _ _ 1 eq_refl (fixed_range_not lo hi (NB I))); auto; try discriminate.
      * intros s Hs. cbn [den]. apply dom_ascii in Hs; [|exact (NB I)]. split; [intros [c [-> H]]; exists c; split; [apply (proj2 (is_char_ascii _ _ Hs)); reflexivity|exact H]|]. intros [c [H1 H2]]. apply (proj1 (is_char_ascii _ _ Hs)) in H1. exists c. auto.
      * exists 1, (MRange lo hi true). auto.
      * split; discriminate.
      * intros NN. exfalso. apply NN. left. exact I.
    + exists (MRange lo hi false, fun s => exists c, s = [c] /\ (lo <= c <= hi)%Z). apply (fixed_elof seps (NRange false lo hi) _ _ 1 eq_refl (fixed_range lo hi (fun _ => conj L0 H0))); auto; try discriminate.
      * intros s Hs. cbn [den]. split; [intros [c [-> H]]; exists c; split; [apply is_char_low; [lia|reflexivity]|exact H]|]. intros [c [H1 H2]]. apply is_char_low in H1; [exists c; auto|lia].
      * exists 1, (MRange lo hi false). auto.
      * split; discriminate.
      * intros _. unfold Match. cbn [sem sMatch]. unfold one_rune. cbn [decode length Nat.ltb Nat.leb]. unfold RuneError. rewrite (proj2 (Z.leb_gt 65533 hi)) by lia. rewrite andb_false_r. reflexivity.
  - (* text *) destruct Lf as [At Nt]. exists (MText t, fun s => s = t). apply (fixed_elof seps (NText t) _ _ (length t) eq_refl (fixed_text t At Nt)); auto; try discriminate.
    + intros t' E s. injection E as <-. reflexivity.
    + intros s _. reflexivity.
    + exists 1, (MText t). auto.
    + intros t'. cbn. split; congruence.
    + intros _. unfold Match. cbn [sem sMatch]. destruct t; [contradiction Nt; reflexivity|reflexivity].
  - (* * *) assert (Ld : forall s, anyL seps s <-> den seps NAny s) by (intros s; cbn [den]; rewrite (runes_avoid seps s As); reflexivity).
    assert (A0 : forall s, anyL [] s) by (intros s; apply Forall_forall; intros ? _ []).
    destruct seps as [|c seps].
    + exists (MSuper, fun _ => True). split; cbn [mtc lg fst snd]; auto.
      * split; cbn [mtc lg fst snd]; auto; [right; apply free_super|discriminate|]. intros e k E. injection E as <- <-. split; [constructor|auto].
      * intros s Hs. rewrite <- (Ld s). split; auto.
      * exists 1, MSuper. auto.
      * intros e k E. injection E as <- <-. reflexivity.
      * intros _. left. reflexivity.
      * intros _. exists [], GSuper. auto.
      * intros _. left. left. reflexivity.
      * intros _ _. apply pref_super.
      * intros t. split; discriminate.
      * split; [|reflexivity]. intros _. right. auto.
      * discriminate.
      * intros _ s Hs. apply free_super, Hs.
    + exists (MAny (c :: seps), anyL (c :: seps)). split; cbn [mtc lg fst snd]; auto.
      * split; cbn [mtc lg fst snd]; auto; [right; apply free_any; exact As|discriminate|]. intros e k E. injection E as <- <-. split; [exact As|]. split; [discriminate|reflexivity].
      * exists 1, (MAny (c :: seps)). auto.
      * intros e k E. injection E as <- <-. reflexivity.
      * intros _. left. reflexivity.
      * intros _. exists (c :: seps), GAny. auto.
      * intros _. left. left. reflexivity.
      * intros _ H. apply pref_any; [exact As|auto].
      * intros t. split; discriminate.
      * split; [discriminate|]. intros [?|[_ ?]]; discriminate.
      * discriminate.
      * intros _ s Hs. apply free_any; assumption.
  - (* ** *) exists (MSuper, fun _ => True). split; cbn [mtc lg fst snd]; auto.
      * split; cbn [mtc lg fst snd]; auto; [right; apply free_super|discriminate|]. intros e k E. injection E as <- <-. split; [constructor|auto].
      * intros s Hs. cbn. tauto.
      * exists 1, MSuper. auto.
      * intros e k E. injection E as <- <-. reflexivity.
      * intros _. right. reflexivity.
      * intros _. exists [], GSuper. auto.
      * intros _. left. right. reflexivity.
      * intros _ _. apply pref_super.
      * intros t. split; discriminate.
      * split; [|reflexivity]. intros _. left. auto.
      * discriminate.
      * intros _ s Hs. apply free_super, Hs.
  - (* ? *) exists (MSingle seps, oneL seps). apply (fixed_elof seps NSingle _ _ 1 eq_refl (fixed_single seps (NB I))); auto; try discriminate.
    + intros e g E. cbn in E. injection E as <- <-. pose proof (NB I). split; [exact As|]. repeat (split; [first [reflexivity|assumption]|]). reflexivity.
    + intros s Hs. cbn [den]. apply dom_ascii in Hs; [|exact (NB I)]. split; [intros [c [-> H]]; exists c; split; [apply (proj2 (is_char_ascii _ _ Hs)); reflexivity|exact H]|]. intros [c [H1 H2]]. apply (proj1 (is_char_ascii _ _ Hs)) in H1. exists c. auto.
    + exists 1, (MSingle seps). auto.
    + split; discriminate.
    + intros NN. exfalso. apply NN. left. exact I.
Qed.

(** ** Alternatives *)
Lemma any_len_differ : forall xs l, Forall (fun x => (0 <= sLen x)%Z) xs -> ((0 <= l)%Z -> (exists x, In x xs /\ sLen x <> l) -> any_len l xs = (-1)%Z).
Proof.
  induction xs as [|x xs IH]; intros l F Hl [y [I N]]; [destruct I|]. inversion F as [|? ? Fx Fxs]; subst. cbn [any_len]. destruct (Z.eqb_spec l (-1)); [lia|]. destruct (Z.eqb_spec (sLen x) (-1)); [lia|].
  destruct (Z.eqb_spec l (sLen x)) as [E|E]; [|reflexivity]. apply IH; auto. destruct I as [<-|I]; [congruence|eauto].
Qed.
Lemma any_len_two xs : Forall (fun x => (0 <= sLen x)%Z) xs -> (exists x y, In x xs /\ In y xs /\ sLen x <> sLen y) -> any_len no xs = (-1)%Z.
Proof.
  intros F [x [y [Ix [Iy N]]]]. destruct xs as [|z xs]; [destruct Ix|]. cbn [any_len]. change (no =? -1)%Z with true. cbv iota. inversion F as [|? ? Fz Fxs]; subst. apply any_len_differ; auto.
  destruct (Z.eq_dec (sLen x) (sLen z)) as [E|E].
  - exists y. split; [destruct Iy as [<-|Iy]; [congruence|exact Iy]|congruence].
  - exists x. split; [destruct Ix as [<-|Ix]; [congruence|exact Ix]|exact E].
Qed.
Lemma no_common ch : forallb is_pattern ch = true -> (forall n, ~ (forall c, In c ch -> hd_error (children c) = Some n)) ->
  (forall n, ~ (forall c, In c ch -> hd_error (rev (children c)) = Some n)) -> minimizeTreeAnyOf ch = None.
Proof.
  intros P H1 H2. unfold minimizeTreeAnyOf. rewrite P. cbn [negb]. destruct (commonChildren ch) as [cl cr] eqn:CC.
  destruct cl as [|n cl]; [destruct cr as [|n cr _] using rev_ind; [reflexivity|]|].
  - exfalso. destruct (common_spec ch _ _ CC) as [_ F]; [right; destruct cr; discriminate|]. rewrite Forall_forall in F. apply (H2 n). intros c I. destruct (F c I) as [Lc [_ E]]. unfold lastn in E.
    rewrite <- (firstn_skipn (length (children c) - length (cr ++ [n])) (children c)), E, rev_app_distr, rev_app_distr. reflexivity.
  - exfalso. destruct (common_spec ch _ _ CC) as [_ F]; [left; discriminate|]. rewrite Forall_forall in F. apply (H1 n). intros c I. destruct (F c I) as [Lc [E _]]. destruct (children c) as [|n' l]; [discriminate|]. cbn in E. injection E as -> _. reflexivity.
Qed.
(** compile_f with a common amount of fuel for a list. *)
Lemma map_opt_fuel {A} (g : A -> Node) (h : A -> Matcher) seps l : Forall (fun a => exists f m, compile_f f (g a) seps = Some m /\ optimizeMatcher m = h a) l ->
  exists f, map_opt (fun c => option_map optimizeMatcher (compile_f f c seps)) (map g l) = Some (map h l).
Proof.
  induction 1 as [|a l [f1 [m [C O]]] _ [f2 IH]]; [exists 0; reflexivity|]. exists (max f1 f2). cbn [map map_opt]. rewrite (compile_mono f1 (max f1 f2) _ _ _ ltac:(lia) C). cbn [option_map]. rewrite O.
  assert (E : map_opt (fun c => option_map optimizeMatcher (compile_f (max f1 f2) c seps)) (map g l) = Some (map h l)).
  { clear - IH. revert IH. generalize (map h l) as r. induction (map g l) as [|n ns IHn]; intros r H; cbn [map_opt] in *; [exact H|].
    destruct (compile_f f2 n seps) as [m0|] eqn:C0; [|discriminate]. rewrite (compile_mono f2 (max f1 f2) _ _ _ ltac:(lia) C0). cbn [option_map] in *.
    destruct (map_opt _ ns) as [ys|]; [|discriminate]. injection H as <-. rewrite (IHn ys eq_refl). reflexivity. }
  rewrite E. reflexivity.
Qed.
Lemma compile_single seps n x : elof seps n x -> exists f m, compile_f f (NPattern [n]) seps = Some m /\ optimizeMatcher m = mtc x.
Proof.
  intros E. destruct (e_comp _ _ _ E) as [f [m [C O]]]. pose proof (g_opt _ (e_good _ _ _ E)) as Ox. exists (S f), (mtc x). split; [|exact Ox].
  cbn [compile_f map_opt]. rewrite C. cbn [option_map]. rewrite O. unfold minimizeMatchers, compileMatchers. cbn. rewrite Ox. reflexivity.
Qed.
Lemma unionL_den seps ls xs : Forall2 (elof seps) ls xs -> forall s, dom s -> (unionL (map lg xs) s <-> den seps (choice ls) s).
Proof.
  intros F s As. unfold choice. rewrite den_anyof. unfold unionL. induction F as [|n x ls xs E F IH]; cbn [map].
  - split; [intros [L [[] _]]|intros [n [[] _]]].
  - split.
    + intros [L [[<-|I] H]]; [exists (NPattern [n]); split; [left; reflexivity|]; apply den_pattern, cat_one, (e_den _ _ _ E s As), H|]. destruct (proj1 IH) as [m [Im D]]; [eauto|]. exists m. split; [right; exact Im|exact D].
    + intros [m [[<-|I] D]]; [exists (lg x); split; [left; reflexivity|]; apply (e_den _ _ _ E s As), cat_one, den_pattern, D|]. destruct (proj2 IH) as [L [IL H]]; [eauto|]. exists L. split; [right; exact IL|exact H].
Qed.
Lemma Forall2_in_l {A B} (R : A -> B -> Prop) l l' : Forall2 R l l' -> forall a, In a l -> exists b, In b l' /\ R a b.
Proof. induction 1 as [|a b l l' H _ IH]; intros x I; [destruct I|]. destruct I as [<-|I]; [exists b; split; [left; reflexivity|exact H]|]. destruct (IH x I) as [y [J Q]]. exists y. split; [right; exact J|exact Q]. Qed.
Lemma Forall2_in_r {A B} (R : A -> B -> Prop) l l' : Forall2 R l l' -> forall b, In b l' -> exists a, In a l /\ R a b.
Proof. induction 1 as [|a b l l' H _ IH]; intros x I; [destruct I|]. destruct I as [<-|I]; [exists a; split; [left; reflexivity|exact H]|]. destruct (IH x I) as [y [J Q]]. exists y. split; [right; exact J|exact Q]. Qed.
Lemma Forall_exists2 {A B} (R : A -> B -> Prop) l : Forall (fun a => exists b, R a b) l -> exists l', Forall2 R l l'.
Proof. induction 1 as [|a l [b H] _ [l' IH]]; [exists []; constructor|]. exists (b :: l'). constructor; assumption. Qed.
Lemma choice_inj a b : choice a = choice b -> a = b.
Proof. intros E. injection E as E. revert b E. induction a as [|x a IH]; intros [|y b] E; try discriminate; [reflexivity|]. cbn in E. injection E as -> E. f_equal. apply IH, E. Qed.
Definition onat_dec (a b : option nat) : {a = b} + {a <> b}.
Proof. decide equality. apply Nat.eq_dec. Defined.
Lemma same_width_dec ls : same_width ls \/ ~ same_width ls.
Proof.
  destruct ls as [|a ls]; [left; intros x y []|]. destruct (Forall_dec (fun b => width b = width a) (fun b => onat_dec (width b) (width a)) (a :: ls)) as [F|F].
  - left. intros x y Ix Iy. rewrite Forall_forall in F. rewrite (F x Ix), (F y Iy). reflexivity.
  - right. intros H. apply F, Forall_forall. intros x Ix. apply H; [exact Ix|left; reflexivity].
Qed.
Lemma differ_dec : forall ls, Forall (fun l => width l <> None) ls -> ~ same_width ls -> exists a b, In a ls /\ In b ls /\ width a <> width b.
Proof.
  intros ls F N. destruct ls as [|a ls]; [exfalso; apply N; intros x y []|].
  destruct (Exists_dec (fun b => width b <> width a) (a :: ls)) as [E|E]; [intros b; destruct (onat_dec (width b) (width a)); [right; auto|left; auto]| |].
  - apply Exists_exists in E. destruct E as [b [Ib E]]. exists b, a. split; [exact Ib|]. split; [left; reflexivity|exact E].
  - exfalso. apply N. assert (K : forall x, In x (a :: ls) -> width x = width a).
    { intros x Ix. destruct (onat_dec (width x) (width a)) as [Q|Q]; [exact Q|]. exfalso. apply E, Exists_exists. eauto. }
    intros x y Ix Iy. rewrite (K x Ix), (K y Iy). reflexivity.
Qed.
Lemma loose_union Ls : Forall loose Ls -> loose (unionL Ls).
Proof. intros F B x b y bs Hb [L [I H]] Hs. exists L. split; [exact I|]. rewrite Forall_forall in F. exact (F L I B x b y bs Hb H Hs). Qed.
Lemma elof_choice seps ls : ascii seps -> choices ls -> same_width ls \/ Forall (fun l => ~ negative_leaf l) ls -> (is_bytes -> ~ Exists negative_leaf ls) -> exists x, elof seps (choice ls) x.
Proof.
  intros As [FL [a0 [b0 [Ia [Ib NE]]]]] CW Pos.
  destruct (Forall_exists2 (elof seps) ls) as [xs F].
  { rewrite Forall_forall in *. intros n I. apply elof_leaf; [exact As|apply FL, I|]. intros B Ng. apply (Pos B), Exists_exists. eauto. }
  assert (N2 : exists n1 n2 t, ls = n1 :: n2 :: t). { destruct ls as [|n1 [|n2 t]]; [destruct Ia| |eauto]. destruct Ia as [<-|[]]. destruct Ib as [<-|[]]. contradiction NE. reflexivity. }
  set (m := MAnyOf (map mtc xs)). set (L := unionL (map lg xs)).
  assert (Om : optimizeMatcher m = m). { destruct N2 as [n1 [n2 [t ->]]]. inversion F as [|? x1 ? xs1 E1 F1]; subst. inversion F1 as [|? x2 ? xs2 E2 F2]; subst. reflexivity. }
  assert (COM : exists f m0, compile_f f (choice ls) seps = Some m0 /\ optimizeMatcher m0 = m).
  { assert (MC : Forall (fun p => exists f m0, compile_f f (NPattern [fst p]) seps = Some m0 /\ optimizeMatcher m0 = mtc (snd p)) (combine ls xs)).
    { clear - F. induction F as [|n x ls xs E F IH]; constructor; [apply compile_single, E|exact IH]. }
    destruct (map_opt_fuel (fun p => NPattern [fst p]) (fun p => mtc (snd p)) seps _ MC) as [f Hf].
    assert (E1 : map (fun p : Node * el => NPattern [fst p]) (combine ls xs) = map (fun l => NPattern [l]) ls) by (clear - F; induction F; cbn; congruence).
    assert (E2 : map (fun p : Node * el => mtc (snd p)) (combine ls xs) = map mtc xs) by (clear - F; induction F; cbn; congruence).
    rewrite E1, E2 in Hf. exists (S f), m. split; [|exact Om]. cbn [compile_f choice]. rewrite no_common.
    - rewrite Hf. reflexivity.
    - apply forallb_forall. intros c Ic. apply in_map_iff in Ic. destruct Ic as [l [<- _]]. reflexivity.
    - intros n H. apply NE. assert (K : forall l, In l ls -> l = n) by (intros l Il; specialize (H (NPattern [l]) ltac:(apply in_map_iff; eauto)); cbn in H; congruence). rewrite (K a0 Ia), (K b0 Ib). reflexivity.
    - intros n H. apply NE. assert (K : forall l, In l ls -> l = n) by (intros l Il; specialize (H (NPattern [l]) ltac:(apply in_map_iff; eauto)); cbn in H; congruence). rewrite (K a0 Ia), (K b0 Ib). reflexivity. }
  assert (NST : ~ star (choice ls)) by (intros [E|E]; discriminate E).
  assert (FX : forall x, In x xs -> exists n k, In n ls /\ elof seps n x /\ width n = Some k /\ fixed k (lg x) (sem (mtc x))).
  { intros x Ix. destruct (Forall2_in_r _ _ _ F x Ix) as [n [In0 E]]. rewrite Forall_forall in FL. destruct (FL n In0) as [_ W]. destruct (width n) as [k|] eqn:Wn; [|contradiction]. exists n, k. split; [exact In0|]. split; [exact E|]. split; [exact Wn|]. apply (e_width _ _ _ E k Wn). }
  assert (TOT : ~ negative (choice ls) -> forall s, dom s -> right (sem m) L s).
  { intros NN s Hs. assert (F2 : Forall2 (fun x L => right x L s) (map sem (map mtc xs)) (map lg xs)).
    { assert (K : forall x, In x xs -> right (sem (mtc x)) (lg x) s).
      { intros x Ix. destruct (Forall2_in_r _ _ _ F x Ix) as [n [In0 E]]. apply (e_total _ _ _ E); [|exact Hs]. intros [Ng|[ls' [-> Ng]]].
        - apply NN. right. exists ls. split; [reflexivity|]. apply Exists_exists. eauto.
        - rewrite Forall_forall in FL. destruct (FL _ In0) as [[] _]. }
      clear - K. induction xs as [|x xs IH]; constructor; [apply K; left; reflexivity|]. apply IH. intros y I. apply K. right. exact I. }
    destruct (any_match_right _ _ s F2) as [b Hb]. exists b. exact Hb. }
  assert (NULL : ~ L []).
  { intros [L0 [I0 H]]. apply in_map_iff in I0. destruct I0 as [x [<- Ix]]. destruct (FX x Ix) as [n [k [_ [_ [_ Fx]]]]]. apply (fixed_null _ _ _ Fx H). }
  exists (m, L).
  assert (EL : elem L (sem m) /\ (Len m = (-1)%Z -> ~ same_width ls) /\ (Len m = (-1)%Z -> pref L (sem m))).
  { destruct (same_width_dec ls) as [SW|SW].
    - destruct (FX) with (x := hd (MNothing, fun _ => False) xs) as [n0 [k [In0 [E0 [W0 F0]]]]].
      { destruct N2 as [n1 [n2 [t ->]]]. inversion F; subst. left. reflexivity. }
      assert (FF : fixed k L (sem m)). { apply fixed_anyof; [destruct N2 as [n1 [n2 [t ->]]]; inversion F; discriminate|].
        assert (K : forall x, In x xs -> fixed k (lg x) (sem (mtc x))) by (intros x Ix; destruct (FX x Ix) as [n [k' [In1 [_ [W1 F1]]]]]; rewrite (SW n n0 In1 In0), W0 in W1; injection W1 as <-; exact F1).
        clear - K. induction xs as [|x xs IH]; constructor; [apply K; left; reflexivity|]. apply IH. intros y I. apply K. right. exact I. }
      split; [left; eauto|]. split; intros E; exfalso; apply (fixed_len _ _ _ FF E).
    - destruct CW as [CW|CW]; [contradiction|].
      assert (LM : Len m = (-1)%Z).
      { unfold Len. cbn [m sem sLen]. apply any_len_two.
        - apply Forall_forall. intros x I0. apply in_map_iff in I0. destruct I0 as [y [<- I0]]. apply in_map_iff in I0. destruct I0 as [z [<- I0]]. destruct (FX z I0) as [n [k [_ [_ [_ [E _]]]]]]. rewrite E. lia.
        - destruct (differ_dec ls) as [a [b [Ja [Jb D]]]]; [eapply Forall_impl; [|exact FL]; intros ? H; apply H|exact SW|].
          destruct (Forall2_in_l _ _ _ F a Ja) as [xa [Xa Ea]]. destruct (Forall2_in_l _ _ _ F b Jb) as [xb [Xb Eb]].
          exists (sem (mtc xa)), (sem (mtc xb)). split; [apply in_map, in_map, Xa|]. split; [apply in_map, in_map, Xb|].
          rewrite Forall_forall in FL. destruct (FL a Ja) as [_ Wa]. destruct (FL b Jb) as [_ Wb]. destruct (width a) as [ka|] eqn:Ka; [|contradiction]. destruct (width b) as [kb|] eqn:Kb; [|contradiction].
          destruct (e_width _ _ _ Ea ka Ka) as [Q1 _]. destruct (e_width _ _ _ Eb kb Kb) as [Q2 _]. rewrite Q1, Q2. intros Q. apply D. f_equal. lia. }
      split; [right; split; [exact LM|]; split; [apply TOT|apply loose_union; apply Forall_forall; intros L0 I0; apply in_map_iff in I0; destruct I0 as [x [<- Ix]]; destruct (FX x Ix) as [n [k [_ [_ [_ Fx]]]]]; apply sharp_loose, (fixed_sharp _ _ _ Fx)]|split; [auto|]].
      + intros [[]|[ls' [E Ng]]]. apply choice_inj in E. subst ls'. apply Exists_exists in Ng. destruct Ng as [l [Il Ng]]. rewrite Forall_forall in CW. apply (CW l Il Ng).
      + intros _. apply pref_anyof. assert (K : forall x, In x xs -> pref (lg x) (sem (mtc x))) by (intros x Ix; destruct (FX x Ix) as [n [k [_ [_ [_ F1]]]]]; apply (fixed_pref k), F1).
        clear - K. induction xs as [|x xs IH]; constructor; [apply K; left; reflexivity|]. apply IH. intros y I. apply K. right. exact I. }
  destruct EL as [E1 [E2 E3]].
  split; cbn [mtc lg fst snd]; auto; try discriminate; try contradiction.
  - split; cbn [mtc lg fst snd]; auto; try (unfold m; discriminate).
  - intros s Hs. apply unionL_den; assumption.
  - intros E. right. exists ls. auto.
  - intros t. split; discriminate.
  - split; [discriminate|]. intros [E|[E _]]; discriminate E.
  - exact I.
Qed.
Lemma elof_term seps n : ascii seps -> term n -> (is_bytes -> ~ negative n) -> exists x, elof seps n x.
Proof.
  intros As [L|[ls [-> [C W]]]] Pos; [apply elof_leaf; [assumption|assumption|intros B Ng; apply (Pos B); left; exact Ng]|apply elof_choice; auto]. intros B E. apply (Pos B). right. eauto.
Qed.
End Leaf.
