(** * Compiled sequences of terms (proofs for C46). *)
From Coq Require Import String.
From Coq Require Import ZArith Arith List Bool Lia.
From Verif Require Import Utf8 GoStr GlobLex GlobMatch GlobCompile GlobSpec GlobFragment GlobFactor GlobSem GlobGlue GlobLeaf.
Import ListNotations.
Open Scope nat_scope.

Section Seq.
Context {md : Mode}.
Lemma one_text_super_text m : text_stars_text m -> noglue m -> bad m.
Proof.
  intros [a [mid [b [-> [Ne F]]]]] NG. destruct mid as [|x mid]; [contradiction|]. inversion F as [|? ? Ex F']; subst. destruct mid as [|y mid]; [exists a, b; reflexivity|].
  inversion F' as [|? ? Ey _]; subst. exfalso. assert (H : glueMatchers [MSuper; MSuper] = None) by (apply (NG [MText a] [MSuper; MSuper] (mid ++ [MText b])); reflexivity). discriminate H.
Qed.
Lemma bad_stars m : bad m -> text_stars_text m.
Proof. intros [a [b ->]]. exists a, [MSuper], b. split; [reflexivity|]. split; [discriminate|]. repeat constructor. Qed.
Lemma seq_right xs : Forall good xs -> chain xs -> xs <> [] -> exists m, option_map optimizeMatcher (compileMatchers (minimizeMatchers (map mtc xs))) = Some m
  /\ (~ text_stars_text (map mtc xs) -> forall s, dom s -> s <> [] \/ (forall x, xs = [x] -> total x) -> right (sem m) (catL (map lg xs)) s)
  /\ (forall x, xs = [x] -> m = mtc x) /\ optimizeMatcher m = m.
Proof.
  intros G C NE. unfold minimizeMatchers, compileMatchers. rewrite map_length.
  destruct (minimize_spec (length xs) xs G C (le_n _)) as [ys [Y1 [Y2 [Y3 [Y4 [Y5 [Y6 [Y7 Y8]]]]]]]]. rewrite <- Y1, map_length. specialize (Y8 NE).
  destruct (compile_res (length ys) ys Y2 Y3 Y4 Y8 (le_n _)) as [m [Cm R]]. rewrite Cm. cbn [option_map]. exists (optimizeMatcher m). split; [reflexivity|]. split.
  - intros NT s As Hs. apply (right_ext _ (catL (map lg ys))); [apply Y5|]. destruct (Nat.le_gt_cases 2 (length ys)) as [L|L].
    + apply (r_opt _ _ R L); [|exact As]. intros B. apply NT, Y7, bad_stars, B.
    + destruct ys as [|y [|? ?]]; [contradiction|clear L|cbn in L; lia]. rewrite (r_one _ _ R y eq_refl). inversion Y2 as [|? ? Gy _]; subst. rewrite (g_opt y Gy).
      apply (right_ext _ (lg y)); [symmetry; apply catL_one|].
      assert (T : s <> [] \/ total y) by (destruct Hs as [Hs|Hs]; [left; exact Hs|right; destruct Y6 as [Y6|[_ Y6]]; [apply Hs; auto|apply Y6; reflexivity]]).
      destruct T as [T|T]; [|apply T, As]. destruct (g_elem y Gy) as [[k Fy]|Fy]; [apply Fy; assumption|apply Fy, As].
  - split; [|apply (r_fix _ _ R)]. intros x ->. inversion G as [|? ? Gx _]; subst. destruct Y6 as [->|[Y6 _]]; [rewrite (r_one _ _ R x eq_refl); apply g_opt, Gx|]. destruct ys as [|? ?]; [contradiction|cbn in Y6; lia].
Qed.
(** text, stars, text *)
Lemma glue_mixed a b : (exists t, In (MText t) a) -> In MSuper a -> b = glueMatchers a -> b = None.
Proof.
  intros [t It] Is ->. unfold glueMatchers. assert (E : glueMatchersAsEvery a = None).
  { unfold glueMatchersAsEvery. destruct (length a <=? 1); [reflexivity|]. destruct a as [|m a]; [reflexivity|]. destruct (glue_kind m) as [[e k]|]; [|reflexivity].
    assert (H : glue_kinds e (m :: a) = None). { clear - It. revert It. generalize (m :: a). intros l. induction l as [|x l IH]; intros I; [destruct I|]. cbn [glue_kinds]. destruct I as [->|I]; [reflexivity|]. destruct (glue_kind x) as [[e' k']|]; [|reflexivity]. destruct (zs_eqb e' e); [|reflexivity]. rewrite IH by exact I. reflexivity. }
    rewrite H. reflexivity. }
  rewrite E. unfold glueMatchersAsRow. destruct (length a <=? 1); [reflexivity|]. assert (H : existsb (fun m => (Len m =? -1)%Z) a = true) by (apply existsb_exists; exists MSuper; split; [exact Is|reflexivity]). rewrite H. reflexivity.
Qed.
Lemma repeat_all {A} (x : A) l : Forall (fun y => y = x) l -> l = repeat x (length l).
Proof. induction 1 as [|y l -> _ IH]; [reflexivity|]. cbn. f_equal. exact IH. Qed.
Lemma super_kinds n : glue_kinds [] (repeat MSuper n) = Some (repeat GSuper n).
Proof. induction n as [|n IH]; [reflexivity|]. cbn [repeat glue_kinds glue_kind]. rewrite IH. reflexivity. Qed.
Lemma glue_supers n : 2 <= n -> glueMatchers (repeat MSuper n) = Some MSuper.
Proof.
  intros H. unfold glueMatchers, glueMatchersAsEvery. rewrite repeat_length. destruct (Nat.leb_spec n 1); [lia|]. destruct n as [|n]; [lia|]. cbn [repeat glue_kind].
  change (MSuper :: repeat MSuper n) with (repeat MSuper (S n)). rewrite super_kinds. cbn [repeat existsb is_super].
  assert (A : existsb is_any (repeat GSuper n) = false) by (clear; induction n; [reflexivity|exact IHn]). assert (O : existsb is_one (repeat GSuper n) = false) by (clear; induction n; [reflexivity|exact IHn]).
  cbn [is_any is_one orb]. rewrite A, O. reflexivity.
Qed.
Lemma stars_slice a b n l r : l < r -> r <= n + 2 -> let w := firstn (r - l) (skipn l (MText a :: repeat MSuper n ++ [MText b])) in
  (1 <= l /\ r <= n + 1 /\ w = repeat MSuper (r - l)) \/ glueMatchers w = None \/ n = 0.
Proof.
  intros H1 H2 w. destruct n as [|n]; [auto|]. destruct (Nat.eq_dec (r - l) 1) as [E1|E1].
  { right. left. apply not_false_iff_true || idtac. unfold glueMatchers, glueMatchersAsEvery, glueMatchersAsRow. assert (Lw : length w <= 1) by (unfold w; rewrite firstn_length; lia). destruct (Nat.leb_spec (length w) 1); [reflexivity|lia]. }
  destruct l as [|l].
  { right. left. apply (glue_mixed w); [| |reflexivity]; unfold w; destruct r as [|[|r]]; try lia; cbn [Nat.sub skipn firstn repeat app]; [exists a; left; reflexivity|right; left; reflexivity]. }
  unfold w. cbn [skipn]. rewrite skipn_app, repeat_length.
  assert (SK : skipn l (repeat MSuper (S n)) = repeat MSuper (S n - l)). { assert (E : S n = l + (S n - l)) by lia. rewrite E at 1. rewrite repeat_app. rewrite skipn_app, skipn_all2 by (rewrite repeat_length; lia). rewrite repeat_length, Nat.sub_diag. reflexivity. }
  rewrite SK. replace (l - S n) with 0 by lia. cbn [skipn]. destruct (Nat.le_gt_cases r (S n + 1)) as [R|R].
  - left. split; [lia|]. split; [lia|]. rewrite firstn_app, repeat_length. replace (r - S l - (S n - l)) with 0 by lia. cbn [firstn]. rewrite app_nil_r.
    assert (E : S n - l = (r - S l) + (S n - l - (r - S l))) by lia. rewrite E, repeat_app, firstn_app, repeat_length, Nat.sub_diag. rewrite firstn_all2 by (rewrite repeat_length; lia). cbn [firstn]. apply app_nil_r.
  - right. left. apply (glue_mixed (firstn (r - S l) (repeat MSuper (S n - l) ++ [MText b]))); [| |reflexivity]; rewrite firstn_all2 by (rewrite app_length, repeat_length; cbn [length]; lia).
    + exists b. apply in_or_app. right. left. reflexivity.
    + apply in_or_app. left. destruct (S n - l) as [|k] eqn:E; [lia|]. left. reflexivity.
Qed.
Lemma minimize_stars a b : forall fuel n, 1 <= n -> n <= fuel -> minimize_f fuel (MText a :: repeat MSuper n ++ [MText b]) = [MText a; MSuper; MText b].
Proof.
  induction fuel as [|f IH]; intros n H1 H2; [lia|]. cbn [minimize_f]. set (ms := MText a :: repeat MSuper n ++ [MText b]).
  assert (LM : length ms = n + 2) by (unfold ms; cbn [length]; rewrite app_length, repeat_length; cbn; lia).
  pose proof (consider_spec ms (slices (length ms)) None) as CS. destruct (fold_left (consider ms) (slices (length ms)) None) as [[[d l] r]|].
  - destruct CS as [CS|[In0 GL]]; [discriminate|]. apply in_slices in In0. rewrite LM in In0. destruct In0 as [Hl Hr].
    destruct (stars_slice a b n l r Hl Hr) as [[Q1 [Q2 Q3]]|[Q|Q]]; [|unfold ms in GL; rewrite Q in GL; discriminate|lia].
    assert (L2 := glue_two _ _ GL). fold ms in Q3. rewrite Q3 in GL, L2. rewrite repeat_length in L2. rewrite glue_supers in GL by exact L2. injection GL as <-.
    assert (NX : firstn l ms ++ MSuper :: skipn r ms = MText a :: repeat MSuper (n - (r - l) + 1) ++ [MText b]).
    { unfold ms. destruct l as [|l]; [lia|]. destruct r as [|r]; [lia|]. cbn [firstn skipn app]. f_equal. rewrite firstn_app, skipn_app, repeat_length.
      replace (l - n) with 0 by lia. replace (r - n) with 0 by lia. cbn [firstn skipn]. rewrite app_nil_r.
      assert (E1 : firstn l (repeat MSuper n) = repeat MSuper l). { assert (E : n = l + (n - l)) by lia. rewrite E at 1. rewrite repeat_app, firstn_app, repeat_length, Nat.sub_diag, firstn_all2 by (rewrite repeat_length; lia). apply app_nil_r. }
      assert (E2 : skipn r (repeat MSuper n) = repeat MSuper (n - r)). { assert (E : n = r + (n - r)) by lia. rewrite E at 1. rewrite repeat_app, skipn_app, skipn_all2 by (rewrite repeat_length; lia). rewrite repeat_length, Nat.sub_diag. reflexivity. }
      rewrite E1, E2. change (MSuper :: repeat MSuper (n - r) ++ [MText b]) with (repeat MSuper (S (n - r)) ++ [MText b]). rewrite app_assoc, <- repeat_app. do 2 f_equal. lia. }
    rewrite NX. cbv zeta. assert (LN : length (MText a :: repeat MSuper (n - (r - l) + 1) ++ [MText b]) = n - (r - l) + 3) by (cbn [length]; rewrite app_length, repeat_length; cbn; lia).
    rewrite LN, LM. destruct (Nat.eqb_spec (n - (r - l) + 3) (n + 2)); [lia|]. apply IH; lia.
  - destruct CS as [_ CS]. destruct (Nat.eq_dec n 1) as [->|N]; [reflexivity|]. exfalso. specialize (CS 1 (n + 1)). rewrite in_slices, LM in CS. specialize (CS ltac:(lia)).
    replace (n + 1 - 1) with n in CS by lia. unfold ms in CS. cbn [skipn] in CS. rewrite firstn_app, repeat_length, Nat.sub_diag, firstn_all2 in CS by (rewrite repeat_length; lia). cbn [firstn] in CS. rewrite app_nil_r, glue_supers in CS by lia. discriminate.
Qed.
Lemma stars_compiled a mid b : mid <> [] -> Forall (fun m => m = MSuper) mid -> option_map optimizeMatcher (compileMatchers (minimizeMatchers (MText a :: mid ++ [MText b]))) = Some (MPrefixSuffix a b).
Proof.
  intros Ne F. rewrite (repeat_all _ _ F). assert (L : 1 <= length mid) by (destruct mid; [contradiction|cbn; lia]). unfold minimizeMatchers. rewrite minimize_stars by (cbn [length]; rewrite ?app_length, ?repeat_length; cbn; lia).
  unfold compileMatchers. cbn [length compileMatchers_f]. assert (GN : glueMatchers [MText a; MSuper; MText b] = None) by (apply (glue_mixed [MText a; MSuper; MText b]); [exists a; left; reflexivity|right; left; reflexivity|reflexivity]).
  rewrite GN. cbn [longest]. assert (La : forall t, (Len (MText t) =? -1)%Z = false) by (intros t; unfold Len; cbn; apply Z.eqb_neq; lia). assert (Ls : (Len MSuper =? -1)%Z = true) by reflexivity.
  rewrite !La, Ls. cbn [negb andb]. assert (P : forall t, (-1 <=? Len (MText t))%Z = true) by (intros t; unfold Len; cbn; apply Z.leb_le; lia). rewrite P.
  assert (GA : glueMatchers [MText a; MSuper] = None) by (apply (glue_mixed [MText a; MSuper]); [exists a; left; reflexivity|right; left; reflexivity|reflexivity]).
  assert (GB : glueMatchers [MSuper; MText b] = None) by (apply (glue_mixed [MSuper; MText b]); [exists b; right; left; reflexivity|left; reflexivity|reflexivity]).
  destruct (Len (MText a) <=? Len (MText b))%Z.
  - cbn [firstn skipn compileMatchers_f]. rewrite GA. cbn [longest]. rewrite La, Ls. cbn [negb andb]. rewrite P. cbn [firstn skipn compileMatchers_f]. reflexivity.
  - cbn [firstn skipn compileMatchers_f]. rewrite GB. cbn [longest]. rewrite La, Ls. cbn [negb andb]. rewrite P. cbn [firstn skipn compileMatchers_f]. reflexivity.
Qed.

(** ** From syntax trees to elements *)
Lemma elems_chain seps ns xs : Forall2 (elof seps) ns xs -> sequence seps ns -> chain xs.
Proof.
  induction 1 as [|n x ns xs E F IH]; intros Q; [exact I|]. destruct F as [|n' y ns xs E' F]; [exact I|]. destruct Q as [Q1 Q2]. split; [apply (elof_adj seps n n'); assumption|apply IH, Q2].
Qed.
Lemma elems_good seps ns xs : Forall2 (elof seps) ns xs -> Forall good xs.
Proof. induction 1 as [|n x ns xs E F IH]; constructor; [apply (e_good _ _ _ E)|exact IH]. Qed.
Lemma elems_lang seps ns xs : Forall2 (elof seps) ns xs -> forall s, dom s -> (catL (map lg xs) s <-> cat seps ns s).
Proof.
  induction 1 as [|n x ns xs E F IH]; intros s As; cbn [map catL cat]; [reflexivity|].
  split; intros [u [v [-> [A B]]]]; apply dom_app in As; destruct As as [Au Av]; exists u, v; (split; [reflexivity|]); (split; [apply (e_den _ _ _ E u Au), A|apply (IH v Av), B]).
Qed.
Lemma elems_between seps ns xs : Forall2 (elof seps) ns xs -> forall mid p q, map mtc xs = MText p :: mid ++ [MText q] -> mid <> [] -> Forall (fun m => m = MSuper) mid -> between seps ns p q.
Proof.
  intros F mid p q E Ne FS. inversion F as [|a x ns' xs' Ea F']; subst; [discriminate|]. cbn [map] in E. injection E as Ex E. destruct xs' as [|y xs' _] using rev_ind; [destruct mid; discriminate|].
  rewrite map_app in E. cbn [map] in E. apply app_inj_tail in E. destruct E as [Em Ey]. apply Forall2_app_inv_r in F'. destruct F' as [nm [nb [Fm [Fb ->]]]]. inversion Fb as [|b y' ? ? Eb Fnil]; subst. inversion Fnil; subst.
  exists a, nm, b. split; [reflexivity|]. split; [apply (e_text _ _ _ Ea), Ex|]. split; [apply (e_text _ _ _ Eb), Ey|]. split; [destruct Fm; [contradiction Ne; reflexivity|discriminate]|].
  clear - Fm FS. induction Fm as [|n x nm xs E F IH]; [constructor|]. cbn [map] in FS. inversion FS; subst. constructor; [apply (e_super _ _ _ E); assumption|apply IH; assumption].
Qed.
Lemma elems_between_back seps ns xs p q : Forall2 (elof seps) ns xs -> between seps ns p q -> exists mid, map mtc xs = MText p :: mid ++ [MText q] /\ mid <> [] /\ Forall (fun m => m = MSuper) mid.
Proof.
  intros F [a [nm [b [-> [Pa [Qb [Ne W]]]]]]]. inversion F as [|? x ? xs' Ea F']; subst. apply Forall2_app_inv_l in F'. destruct F' as [xm [xb [Fm [Fb ->]]]]. inversion Fb as [|? y ? ? Eb Fnil]; subst. inversion Fnil; subst.
  exists (map mtc xm). split; [cbn [map]; rewrite map_app; cbn [map]; rewrite (proj2 (e_text _ _ _ Ea p) Pa), (proj2 (e_text _ _ _ Eb q) Qb); reflexivity|].
  split; [destruct Fm; [contradiction Ne; reflexivity|discriminate]|]. clear - Fm W. induction Fm as [|n x nm xs E F IH]; [constructor|]. inversion W; subst. constructor; [apply (e_super _ _ _ E); assumption|apply IH; assumption].
Qed.
Lemma elems_compile seps ns xs : Forall2 (elof seps) ns xs -> ns <> [] ->
  exists f, compile_f f (NPattern ns) seps = option_map optimizeMatcher (compileMatchers (minimizeMatchers (map mtc xs))).
Proof.
  intros F Ne. assert (MC : Forall (fun p => exists f m0, compile_f f (fst p) seps = Some m0 /\ optimizeMatcher m0 = mtc (snd p)) (combine ns xs)).
  { clear - F. induction F as [|n x ns xs E F IH]; constructor; [apply (e_comp _ _ _ E)|exact IH]. }
  destruct (map_opt_fuel fst (fun p => mtc (snd p)) seps _ MC) as [f Hf].
  assert (E1 : map (@fst Node el) (combine ns xs) = ns) by (clear - F; induction F; cbn; congruence).
  assert (E2 : map (fun p : Node * el => mtc (snd p)) (combine ns xs) = map mtc xs) by (clear - F; induction F; cbn; congruence).
  rewrite E1, E2 in Hf. exists (S f). cbn [compile_f]. destruct ns as [|n ns]; [contradiction|]. rewrite Hf. reflexivity.
Qed.
Lemma terms_elems seps ns : ascii seps -> Forall term ns -> (is_bytes -> Forall (fun n => ~ negative n) ns) -> exists xs, Forall2 (elof seps) ns xs.
Proof. intros As F Pos. apply Forall_exists2, Forall_forall. intros n I. apply elof_term; [exact As|rewrite Forall_forall in F; apply F, I|]. intros B. specialize (Pos B). rewrite Forall_forall in Pos. apply Pos, I. Qed.
Lemma right_decides m L s : right (sem m) L s -> decides m L s.
Proof. intros [[|] [M H]]; [left; split; [exact M|apply H; reflexivity]|right]. split; [exact M|]. intros C. apply H in C. discriminate. Qed.
(** A sequence of terms: what it is compiled to, for some fuel. *)
Lemma sequence_compiled seps ns : ascii seps -> Forall term ns -> sequence seps ns -> (forall a b, ~ between seps ns a b) -> (is_bytes -> Forall (fun n => ~ negative n) ns) ->
  exists f m, compile_f f (NPattern ns) seps = Some m /\ optimizeMatcher m = m /\ forall s, dom s -> (s = [] -> forall n, ns = [n] -> ~ negative n) -> right (sem m) (den seps (NPattern ns)) s.
Proof.
  intros As F Q NB Pos. destruct ns as [|n0 ns0].
  { exists 1, MNothing. split; [reflexivity|]. split; [reflexivity|]. intros s _ _. cbn [sem]. eexists. split; [reflexivity|]. rewrite eqs_iff. reflexivity. }
  set (ns := n0 :: ns0) in *. destruct (terms_elems seps ns As F Pos) as [xs FX].
  assert (Nx : xs <> []) by (inversion FX; discriminate).
  destruct (seq_right xs (elems_good _ _ _ FX) (elems_chain _ _ _ FX Q) Nx) as [m [Cm [R [_ O]]]].
  destruct (elems_compile seps ns xs FX ltac:(discriminate)) as [f Cf]. rewrite Cm in Cf. exists f, m. split; [exact Cf|]. split; [exact O|]. intros s Hs E.
  apply (right_ext _ (catL (map lg xs))); [rewrite (elems_lang _ _ _ FX s Hs); symmetry; apply den_pattern|]. apply R; [|exact Hs|].
  - intros [p [mid [q [Em [Nm Fm]]]]]. apply (NB p q). apply (elems_between seps ns xs FX mid); assumption.
  - destruct s as [|c s]; [right|left; discriminate]. intros x Ex. rewrite Ex in FX. inversion FX as [|n1 x1 ns1 xs1 E1 F1]; subst. inversion F1; subst. apply (e_total _ _ _ E1). apply (E eq_refl). reflexivity.
Qed.
Lemma fuel_unique f f' n seps m m' : compile_f f n seps = Some m -> compile_f f' n seps = Some m' -> m = m'.
Proof. intros A B. destruct (Nat.le_ge_cases f f') as [L|L]; [pose proof (compile_mono _ _ _ _ _ L A)|pose proof (compile_mono _ _ _ _ _ L B)]; congruence. Qed.
End Seq.
