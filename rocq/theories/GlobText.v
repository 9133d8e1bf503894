(** * Proofs for C46 on arbitrary strings: patterns of texts and stars. *)
From Coq Require Import String.
From Coq Require Import ZArith Arith List Bool Lia.
From Verif Require Import Utf8 GoStr GlobLex GlobMatch GlobCompile GlobSpec GlobFragment GlobParse GlobFactor GlobSem GlobGlue GlobLeaf GlobSeq.
Import ListNotations.
Open Scope nat_scope.

(** ** Bytes of an encoded character *)
Lemma encode_bytes_shape c : exists h tl, encode c = h :: tl /\ cont h = false /\ Forall (fun b => cont b = true) tl.
Proof.
  unfold encode. set (q := if (_ || _ || _) then _ else _). assert (Q : (0 <= q <= 1114111)%Z).
  { unfold q. destruct (Z.ltb_spec c 0); [cbn; unfold RuneError; lia|]. destruct (Z.gtb_spec c 1114111); [cbn; unfold RuneError; lia|]. cbn. destruct (surrogate c); [unfold RuneError; lia|lia]. }
  clearbody q. unfold cont, in_range.
  pose proof (Z.mod_pos_bound q 64 ltac:(lia)). pose proof (Z.mod_pos_bound (q / 64) 64 ltac:(lia)). pose proof (Z.mod_pos_bound (q / 4096) 64 ltac:(lia)).
  assert (K : forall b, (128 <= b <= 191)%Z -> ((128 <=? b) && (b <=? 191))%Z = true) by (intros b B; rewrite andb_true_iff, !Z.leb_le; lia).
  assert (N : forall b, (b < 128 \/ 191 < b)%Z -> ((128 <=? b) && (b <=? 191))%Z = false) by (intros b B; apply not_true_iff_false; rewrite andb_true_iff, !Z.leb_le; lia).
  destruct (Z.ltb_spec q 128); [do 2 eexists; split; [reflexivity|]; split; [apply N; lia|constructor]|].
  destruct (Z.ltb_spec q 2048); [do 2 eexists; split; [reflexivity|]; split; [apply N|repeat (constructor; [apply K; lia|]); constructor]; assert (0 <= q / 64)%Z by (apply Z.div_pos; lia); lia|].
  destruct (Z.ltb_spec q 65536); (do 2 eexists; split; [reflexivity|]; split; [apply N|repeat (constructor; [apply K; lia|]); constructor]).
  - assert (0 <= q / 4096)%Z by (apply Z.div_pos; lia). lia.
  - assert (0 <= q / 262144)%Z by (apply Z.div_pos; lia). lia.
Qed.
(** A text that does not occur inside its own first character. *)
Lemma text_first t : valid_utf8 t -> t <> [] -> exists w, 1 <= w <= length t /\ (forall b, snd (decode (t ++ b)) = w) /\ (forall j b k, 0 < j -> j < w -> sub (t ++ b) j (S k) <> firstn (S k) t).
Proof.
  intros [rs [V ->]] Ne. destruct V as [|c rs Vc V]; [contradiction|]. change (utf8 (c :: rs)) with (encode c ++ utf8 rs). destruct (encode_bytes_shape c) as [h [tl [E [Ch Ct]]]]. exists (length (encode c)). split; [|split].
  - rewrite app_length, E. cbn [length]. lia.
  - intros b. rewrite <- app_assoc, decode_encode by exact Vc. reflexivity.
  - intros j b k J1 J2 X. rewrite E in X, J2. destruct j as [|j]; [lia|]. cbn [length] in J2. unfold sub in X. cbn [app skipn firstn] in X. rewrite <- app_assoc in X. rewrite skipn_app in X. destruct (skipn j tl) as [|d r] eqn:S0.
    + apply (f_equal (@length Z)) in S0. rewrite skipn_length in S0. cbn in S0. lia.
    + cbn [app] in X. injection X as -> _. assert (I : In h tl). { rewrite <- (firstn_skipn j tl), S0. apply in_or_app. right. left. reflexivity. } rewrite Forall_forall in Ct. rewrite (Ct h I) in Ch. discriminate.
Qed.

(** ** A BTree around a text *)
Definition rgt (f : str -> option bool) (L : str -> Prop) : Prop := forall s, exists b, f s = Some b /\ (b = true <-> L s).
Lemma btree_loop_text t l r Ll Lr : valid_utf8 t -> t <> [] -> rgt (opt_match l) Ll -> rgt (opt_match r) Lr -> forall s fuel o, 1 <= fuel -> length s < fuel + o ->
  exists b, btree_loop fuel (sem (MText t)) l r s (Z.of_nat o) (Z.of_nat (length s)) = Some b /\
    (b = true <-> exists p, o <= p /\ p + length t <= length s /\ Ll (firstn p s) /\ sub s p (length t) = t /\ Lr (skipn (p + length t) s)).
Proof.
  intros Vt Nt Rl Rr s. destruct (text_first t Vt Nt) as [w [W1 [W2 W3]]]. assert (Lt : 1 <= length t) by lia.
  induction fuel as [|f IH]; intros o Hf1 Hf; [lia|]. cbn [btree_loop]. destruct (Z.ltb_spec (Z.of_nat o) (Z.of_nat (length s))) as [H|H].
  2: { exists false. split; [reflexivity|]. split; [discriminate|]. intros [p [A [B _]]]. lia. }
  rewrite !Nat2Z.id. rewrite slice_some by lia. rewrite sub_all. cbn [sem sIndex]. pose proof (index_of_spec (skipn o s) t) as IX. destruct (index_of (skipn o s) t) as [i|].
  - destruct IX as [I1 [I2 I3]]. rewrite skipn_length in I1. rewrite sub_skipn in I2. destruct (Nat.ltb_spec (length s) (o + i)); [lia|].
    destruct (Rl (firstn (o + i) s)) as [bl [-> Hbl]]. destruct (Rr (skipn (o + i + length t) s)) as [br [Mr Hbr]].
    assert (T : (if bl then try_right r s (o + i) (rev [length t]) else Some false) = Some (bl && br)).
    { destruct bl; [|reflexivity]. cbn [rev app try_right]. rewrite rest_skipn, Mr. destruct br; reflexivity. }
    rewrite T. destruct (bl && br) eqn:BB.
    + exists true. split; [reflexivity|]. split; [|reflexivity]. intros _. apply andb_true_iff in BB. destruct BB as [-> ->]. exists (o + i). split; [lia|]. split; [lia|]. split; [apply Hbl; reflexivity|]. split; [exact I2|apply Hbr; reflexivity].
    + assert (Es : skipn (o + i) s = t ++ skipn (o + i + length t) s). { transitivity (sub s (o + i) (length t) ++ skipn (o + i + length t) s); [|rewrite I2; reflexivity]. unfold sub. set (p := o + i). clearbody p. rewrite <- skipn_add. symmetry. apply firstn_skipn. }
      rewrite Es, W2. replace (Z.of_nat o + Z.of_nat (i + w))%Z with (Z.of_nat (o + i + w)) by lia.
      destruct (IH (o + i + w) ltac:(lia) ltac:(lia)) as [b [Eb Hb]]. exists b. split; [exact Eb|]. rewrite Hb. split.
      * intros [p [A B]]. exists p. split; [lia|exact B].
      * intros [p [A [B [C [D E]]]]]. exists p. split; [|auto]. destruct (Nat.le_gt_cases (o + i + w) p) as [G|G]; [exact G|]. exfalso. destruct (Nat.lt_trichotomy p (o + i)) as [Q|[->|Q]].
        -- apply (I3 (p - o)); [lia|]. rewrite sub_skipn. replace (o + (p - o)) with p by lia. exact D.
        -- apply Hbl in C. apply Hbr in E. rewrite C, E in BB. discriminate.
        -- apply (W3 (p - (o + i)) (skipn (o + i + length t) s) (length t - 1)); [lia|lia|]. rewrite <- Es, sub_skipn. replace (S (length t - 1)) with (length t) by lia. replace (o + i + (p - (o + i))) with p by lia. rewrite firstn_all. exact D.
  - exists false. split; [reflexivity|]. split; [discriminate|]. intros [p [A [B [C [D E]]]]]. exfalso. apply (IX (p - o)); [rewrite skipn_length; lia|]. rewrite sub_skipn. replace (o + (p - o)) with p by lia. exact D.
Qed.
Lemma btree_text t l r Ll Lr ll rl : valid_utf8 t -> t <> [] -> rgt (opt_match l) Ll -> rgt (opt_match r) Lr -> (ll = 0 \/ ll = -1)%Z -> (rl = 0 \/ rl = -1)%Z ->
  rgt (btree_match (sem (MText t)) l r ll rl (-1)) (fun s => exists a b, s = a ++ t ++ b /\ Ll a /\ Lr b).
Proof.
  intros Vt Nt Rl Rr El Er s. unfold btree_match, offset_limit. change (negb (-1 =? -1)%Z) with false. cbn [andb].
  assert (O1 : (if (0 <=? ll)%Z then ll else 0%Z) = Z.of_nat 0) by (destruct El as [->| ->]; reflexivity). assert (O2 : (if (0 <=? rl)%Z then Z.of_nat (length s) - rl else Z.of_nat (length s))%Z = Z.of_nat (length s)) by (destruct Er as [->| ->]; [change (0 <=? 0)%Z with true; cbv iota; lia|reflexivity]).
  rewrite O1, O2. destruct (btree_loop_text t l r Ll Lr Vt Nt Rl Rr s (S (length s)) 0) as [b [E H]]; [lia|lia|]. exists b. split; [exact E|]. rewrite H. split.
  - intros [p [_ [B [C [D F]]]]]. exists (firstn p s), (skipn (p + length t) s). split; [rewrite <- D at 1; apply split3|auto].
  - intros [a [b' [-> [A B]]]]. exists (length a). split; [lia|]. rewrite !app_length. split; [lia|]. rewrite firstn_app, firstn_all, Nat.sub_diag, firstn_O, app_nil_r. split; [exact A|]. split; [apply sub_app3|].
    rewrite app_assoc, <- app_length, skipn_app, skipn_all, Nat.sub_diag. exact B.
Qed.

(** ** Sequences of texts and stars *)
Inductive tel := ET (t : str) | ES | EA (e : list Z).
Definition mat (x : tel) : Matcher := match x with ET t => MText t | ES => MSuper | EA e => MAny e end.
Definition isT (x : tel) : bool := match x with ET _ => true | _ => false end.
Definition okel (x : tel) : Prop := match x with ET t => valid_utf8 t /\ t <> [] | ES => True | EA e => ascii e /\ e <> [] end.
Fixpoint alternate (xs : list tel) : Prop := match xs with x :: ((y :: _) as r) => isT x = negb (isT y) /\ alternate r | _ => True end.
Definition lan (x : tel) (s : str) : Prop := match x with ET t => s = t | ES => True | EA e => Forall (fun c => ~ In c e) s end.
Fixpoint lang (xs : list tel) (s : str) : Prop := match xs with [] => s = [] | x :: t => exists u v, s = u ++ v /\ lan x u /\ lang t v end.
Lemma lang_app a b : forall s, lang (a ++ b) s <-> exists u v, s = u ++ v /\ lang a u /\ lang b v.
Proof.
  induction a as [|x a IH]; intros s; cbn [app lang].
  - split; [intros H; exists [], s; auto|]. intros [u [v [-> [-> H]]]]. exact H.
  - split.
    + intros [u [v [-> [A H]]]]. apply IH in H. destruct H as [v1 [v2 [-> [B C]]]]. exists (u ++ v1), v2. split; [apply app_assoc|]. split; [exists u, v1; auto|exact C].
    + intros [u [v [-> [[u1 [u2 [-> [A B]]]] C]]]]. exists u1, (u2 ++ v). split; [symmetry; apply app_assoc|]. split; [exact A|]. apply IH. exists u2, v. auto.
Qed.
Lemma lang_one x s : lang [x] s <-> lan x s.
Proof. cbn [lang]. split; [intros [u [v [-> [D ->]]]]; rewrite app_nil_r; exact D|intros D; exists s, []; rewrite app_nil_r; auto]. Qed.
Lemma lang_mid a t b s : lang (a ++ ET t :: b) s <-> exists u v, s = u ++ t ++ v /\ lang a u /\ lang b v.
Proof.
  rewrite lang_app. cbn [lang lan]. split.
  - intros [u [v [-> [A [x [y [-> [-> B]]]]]]]]. exists u, y. auto.
  - intros [u [v [-> [A B]]]]. exists u, (t ++ v). split; [reflexivity|]. split; [exact A|]. exists t, v. auto.
Qed.
Lemma alternate_tail x xs : alternate (x :: xs) -> alternate xs. Proof. destruct xs; [intros _; exact I|intros [_ H]; exact H]. Qed.
Lemma alternate_app a b : alternate (a ++ b) -> alternate a /\ alternate b.
Proof.
  induction a as [|x a IH]; intros H; [split; [exact I|exact H]|]. cbn [app] in H. destruct (IH (alternate_tail _ _ H)) as [A B]. split; [|exact B]. destruct a as [|y a]; [exact I|]. cbn [app alternate] in *. split; [apply H|exact A].
Qed.
Lemma alternate_firstn k xs : alternate xs -> alternate (firstn k xs). Proof. intros H. rewrite <- (firstn_skipn k xs) in H. apply alternate_app in H. apply H. Qed.
Lemma alternate_skipn k xs : alternate xs -> alternate (skipn k xs). Proof. intros H. rewrite <- (firstn_skipn k xs) in H. apply alternate_app in H. apply H. Qed.
Lemma len_star x : isT x = false -> Len (mat x) = (-1)%Z. Proof. destruct x; [discriminate|reflexivity|reflexivity]. Qed.
Lemma glue_none xs : alternate xs -> glueMatchers (map mat xs) = None.
Proof.
  intros A. unfold glueMatchers, glueMatchersAsEvery, glueMatchersAsRow. rewrite map_length. destruct xs as [|x [|y xs]]; [reflexivity|reflexivity|]. cbn [length]. change (S (S (length xs)) <=? 1) with false. cbv iota.
  destruct A as [A _]. assert (E : existsb (fun m => (Len m =? -1)%Z) (map mat (x :: y :: xs)) = true).
  { cbn [map existsb]. destruct (isT x) eqn:Tx; [|rewrite (len_star x Tx); reflexivity]. assert (Ty : isT y = false) by (destruct (isT y); [discriminate|reflexivity]). rewrite (len_star y Ty). cbn. apply orb_true_r. }
  rewrite E. clear E. cbn [map]. destruct x as [t| |e]; [reflexivity| |]; destruct y as [t'| |e']; try discriminate; cbn [mat glue_kind glue_kinds].
  - reflexivity.
  - destruct (zs_eqb e e); reflexivity.
Qed.
Lemma fold_none {A B} (f : option A -> B -> option A) l : (forall x, f None x = None) -> fold_left f l None = None.
Proof. intros H. induction l as [|x l IH]; [reflexivity|]. cbn [fold_left]. rewrite H. exact IH. Qed.
Lemma minimize_same xs : alternate xs -> minimizeMatchers (map mat xs) = map mat xs.
Proof.
  intros A. unfold minimizeMatchers. destruct (length (map mat xs)) as [|n] eqn:L; [reflexivity|]. cbn [minimize_f]. assert (K : forall l, fold_left (consider (map mat xs)) l None = None); [|rewrite K; reflexivity]. intros sl. apply fold_none. intros [l r]. unfold consider. rewrite skipn_map, firstn_map. rewrite glue_none; [reflexivity|]. apply alternate_firstn, alternate_skipn, A.
Qed.
Lemma longest_some ms : forall i mx x, longest ms i mx (Some x) <> None.
Proof. induction ms as [|m ms IH]; intros i mx x; cbn [longest]; [discriminate|]. destruct (_ && _); apply IH. Qed.
Lemma longest_none ms : forall i, longest ms i (-1)%Z None = None -> Forall (fun m => Len m < 0)%Z ms.
Proof.
  induction ms as [|m ms IH]; intros i H; [constructor|]. cbn [longest] in H. destruct (negb (Len m =? -1)%Z && (-1 <=? Len m)%Z) eqn:E; [exfalso; exact (longest_some _ _ _ _ H)|]. constructor; [|exact (IH _ H)].
  apply andb_false_iff in E. rewrite negb_false_iff, Z.eqb_eq, Z.leb_gt in E. lia.
Qed.
Lemma longest_at ms : forall i mx found j m, longest ms i mx found = Some (j, m) -> found = Some (j, m) \/ exists k, j = i + k /\ nth_error ms k = Some m /\ (Len m <> -1)%Z.
Proof.
  induction ms as [|x ms IH]; intros i mx found j m H; cbn [longest] in H; [left; exact H|]. destruct (negb (Len x =? -1)%Z && (mx <=? Len x)%Z) eqn:E.
  - destruct (IH _ _ _ _ _ H) as [X|[k [-> [N L]]]]; [injection X as <- <-; right; exists 0; split; [lia|]; split; [reflexivity|]|right; exists (S k); split; [lia|auto]]. apply andb_true_iff in E. destruct E as [E _]. apply negb_true_iff, Z.eqb_neq in E. exact E.
  - destruct (IH _ _ _ _ _ H) as [X|[k [-> [N L]]]]; [left; exact X|right; exists (S k); split; [lia|auto]].
Qed.
Lemma alternate_has_text xs : alternate xs -> 2 <= length xs -> exists t, In (ET t) xs.
Proof. intros A L. destruct xs as [|x [|y xs]]; [cbn in L; lia|cbn in L; lia|]. destruct A as [A _]. destruct x as [t| |e]; [exists t; left; reflexivity| |]; (destruct y as [t| |e']; try discriminate; exists t; right; left; reflexivity). Qed.
Lemma longest_text xs : alternate xs -> 2 <= length xs -> exists a t b, xs = a ++ ET t :: b /\ longest (map mat xs) 0 (-1)%Z None = Some (length a, MText t).
Proof.
  intros A L. destruct (longest (map mat xs) 0 (-1)%Z None) as [[j m]|] eqn:E.
  - destruct (longest_at _ _ _ _ _ _ E) as [X|[k [-> [N Lm]]]]; [discriminate|]. cbn [plus]. rewrite nth_error_map in N. destruct (nth_error xs k) as [x|] eqn:Nx; [|discriminate]. cbn in N. injection N as <-. destruct x as [t| |e]; try (exfalso; apply Lm; reflexivity).
    destruct (nth_error_split _ _ Nx) as [a [b [-> La]]]. exists a, t, b. split; [reflexivity|]. cbn [mat]. rewrite La. reflexivity.
  - exfalso. apply longest_none in E. destruct (alternate_has_text xs A L) as [t I]. rewrite Forall_forall in E. specialize (E (MText t) (in_map mat _ _ I)). unfold Len in E. cbn [sem sLen] in E. lia.
Qed.
(** What the optimized matcher tells about the sequence. *)
Definition shape (m : Matcher) (xs : list tel) : Prop :=
  match m with MSuper => xs = [ES] | MAny e => xs = [EA e] | MPrefix p => xs = [ET p; ES] | MSuffix q => xs = [ES; ET q] | _ => True end.
Definition oshape (m : option Matcher) (xs : list tel) : Prop := match m with Some m => shape m xs | None => xs = [] end.
Definition squeezed (xs : list tel) : Prop := exists p q, xs = [ET p; ES; ET q].
Lemma optimize_cases t l r ll rl len a b : oshape (oopt l) a -> oshape (oopt r) b -> ~ (a = [] /\ b = []) -> ~ squeezed (a ++ ET t :: b) ->
  let m := optimizeMatcher (MBTree (MText t) l r ll rl len) in
  (a = [ES] /\ b = [ES] /\ m = MContains t false) \/ (a = [ES] /\ b = [] /\ m = MSuffix t) \/ (a = [] /\ b = [ES] /\ m = MPrefix t)
  \/ (exists e, a = [EA e] /\ b = [] /\ m = MSuffixAny t e) \/ (exists e, a = [] /\ b = [EA e] /\ m = MPrefixAny t e)
  \/ m = MBTree (MText t) (oopt l) (oopt r) ll rl len.
Proof.
  intros Sl Sr NN NS m. subst m. cbn [optimizeMatcher]. change (match l with Some x => Some (optimizeMatcher x) | None => None end) with (oopt l). change (match r with Some x => Some (optimizeMatcher x) | None => None end) with (oopt r).
  destruct (oopt l) as [x|], (oopt r) as [y|]; cbn [oshape] in Sl, Sr.
  - destruct x; try (right; right; right; right; right; reflexivity). destruct y; try (right; right; right; right; right; reflexivity). left. auto.
  - destruct x; cbn [shape] in Sl; try (right; right; right; right; right; reflexivity).
    + right. right. right. left. eexists. eauto.
    + right. left. auto.
    + exfalso. apply NS. subst a b. exists p, t. reflexivity.
  - destruct y; cbn [shape] in Sr; try (right; right; right; right; right; reflexivity).
    + right. right. right. right. left. eexists. eauto.
    + right. right. left. auto.
    + exfalso. apply NS. subst a b. do 2 eexists. reflexivity.
  - exfalso. apply NN. auto.
Qed.
Lemma last_before_text a x t b : alternate ((a ++ [x]) ++ ET t :: b) -> isT x = false.
Proof. rewrite <- app_assoc. intros H. apply alternate_app in H. destruct H as [_ [H _]]. cbn in H. exact H. Qed.
Lemma first_after_text a t x b : alternate (a ++ ET t :: x :: b) -> isT x = false.
Proof. intros H. apply alternate_app in H. destruct H as [_ [H _]]. cbn in H. destruct (isT x); [discriminate|reflexivity]. Qed.
Lemma decides_rgt m L : (forall s, decides m L s) -> rgt (Match m) L.
Proof. intros D s. destruct (D s) as [[A B]|[A B]]; [exists true; split; [exact A|tauto]|exists false; split; [exact A|split; [discriminate|contradiction]]]. Qed.
Lemma rgt_iff f L L' : (forall s, L s <-> L' s) -> rgt f L -> rgt f L'.
Proof. intros E R s. destruct (R s) as [b [M H]]. exists b. split; [exact M|]. rewrite H. apply E. Qed.
Section matchers.
Variable t : str.
Lemma text_rgt : rgt (Match (MText t)) (fun s => s = t). Proof. intros s. exists (eqs t s). split; [reflexivity|]. rewrite eqs_iff. split; congruence. Qed.
Lemma prefix_rgt : rgt (Match (MPrefix t)) (fun s => exists u, s = t ++ u). Proof. intros s. eexists. split; [reflexivity|]. apply HasPrefix_iff. Qed.
Lemma suffix_rgt : rgt (Match (MSuffix t)) (fun s => exists u, s = u ++ t). Proof. intros s. eexists. split; [reflexivity|]. apply hassuffix_iff. Qed.
Lemma contains_rgt : rgt (Match (MContains t false)) (fun s => exists u v, s = u ++ t ++ v).
Proof.
  intros s. eexists. split; [reflexivity|]. pose proof (index_of_spec s t) as H. destruct (index_of s t) as [i|]; cbn.
  - split; [intros _|reflexivity]. destruct H as [_ [H _]]. exists (firstn i s), (skipn (i + length t) s). rewrite <- H at 1. apply split3.
  - split; [discriminate|]. intros [u [v ->]]. exfalso. apply (H (length u)); [rewrite app_length; lia|]. apply sub_app3.
Qed.
Lemma any_rgt e : ascii e -> rgt (Match (MAny e)) (fun s => Forall (fun c => ~ In c e) s).
Proof. intros A s. eexists. split; [reflexivity|]. rewrite <- (any_none s e A). destruct (IndexAnyRunes s e); split; congruence. Qed.
Lemma prefixany_rgt e : ascii e -> rgt (Match (MPrefixAny t e)) (fun s => exists u, s = t ++ u /\ Forall (fun c => ~ In c e) u).
Proof.
  intros A s. eexists. split; [reflexivity|]. rewrite andb_true_iff, HasPrefix_iff. assert (K : forall u, skipn (length t) (t ++ u) = u) by (intros u; rewrite skipn_app, skipn_all, Nat.sub_diag; reflexivity). split.
  - intros [[u ->] H]. exists u. split; [reflexivity|]. rewrite K in H. apply (any_none u e A). destruct (IndexAnyRunes u e); [discriminate|reflexivity].
  - intros [u [-> H]]. split; [exists u; reflexivity|]. rewrite K. apply (any_none u e A) in H. rewrite H. reflexivity.
Qed.
Lemma suffixany_rgt e : ascii e -> rgt (Match (MSuffixAny t e)) (fun s => exists u, s = u ++ t /\ Forall (fun c => ~ In c e) u).
Proof.
  intros A s. eexists. split; [reflexivity|]. rewrite andb_true_iff, hassuffix_iff. assert (K : forall u : str, firstn (length (u ++ t) - length t) (u ++ t) = u) by (intros u; rewrite app_length, Nat.add_sub, firstn_app, firstn_all, Nat.sub_diag, firstn_O, app_nil_r; reflexivity). split.
  - intros [[u ->] H]. exists u. split; [reflexivity|]. rewrite K in H. apply (any_none u e A). destruct (IndexAnyRunes u e); [discriminate|reflexivity].
  - intros [u [-> H]]. split; [exists u; reflexivity|]. rewrite K. apply (any_none u e A) in H. rewrite H. reflexivity.
Qed.
End matchers.
Definition compiled (xs : list tel) (m : Matcher) : Prop :=
  ((exists x, In x xs /\ isT x = false) -> Len m = (-1)%Z) /\ (~ squeezed xs -> shape (optimizeMatcher m) xs /\ rgt (Match (optimizeMatcher m)) (lang xs)).
Definition ocompiled (xs : list tel) (o : option Matcher) : Prop := match o with None => xs = [] | Some m => compiled xs m /\ xs <> [] /\ (exists x, In x xs /\ isT x = false) /\ ~ squeezed xs end.
Lemma ocompiled_side xs o : ocompiled xs o -> oshape (oopt o) xs /\ rgt (opt_match (osem (oopt o))) (lang xs) /\ olen o = if length xs =? 0 then 0%Z else (-1)%Z.
Proof.
  destruct o as [m|]; cbn [ocompiled oopt osem oshape olen].
  - intros [[C1 C2] [Ne [St Nq]]]. destruct (C2 Nq) as [S1 R]. split; [exact S1|]. split; [exact R|]. rewrite (C1 St). destruct xs; [contradiction|reflexivity].
  - intros ->. split; [reflexivity|]. split; [|reflexivity]. intros s. exists (eqs s []). split; [reflexivity|]. apply eqs_iff.
Qed.
Lemma tcompile : forall f xs, length xs <= f -> xs <> [] -> Forall okel xs -> alternate xs -> exists m, compileMatchers_f f (map mat xs) = Some m /\ compiled xs m.
Proof.
  induction f as [|f IH]; intros xs L Ne F A; [destruct xs; [contradiction|cbn in L; lia]|]. destruct xs as [|x0 [|x1 rest]]; [contradiction| |].
  - (* one element *)
    exists (mat x0). split; [reflexivity|]. inversion F as [|? ? O _]; subst. split; [intros [x [[<-|[]] E]]; apply len_star, E|]. intros _. destruct x0 as [t| |e]; cbn [mat].
    + split; [exact I|]. apply (rgt_iff _ (fun s => s = t)); [intros s; rewrite lang_one; cbn; tauto|]. apply text_rgt.
    + split; [reflexivity|]. apply (rgt_iff _ (fun _ => True)); [intros s; rewrite lang_one; cbn; tauto|]. intros s. exists true. split; [reflexivity|tauto].
    + destruct O as [Ae Ne']. assert (E : optimizeMatcher (MAny e) = MAny e) by (destruct e; [contradiction|reflexivity]). rewrite E. split; [reflexivity|]. apply (rgt_iff _ (fun s => Forall (fun c => ~ In c e) s)); [intros s; rewrite lang_one; cbn; tauto|]. apply any_rgt, Ae.
  - set (xs := x0 :: x1 :: rest) in *. assert (L2 : 2 <= length xs) by (cbn; lia). assert (CM : compileMatchers_f (S f) (map mat xs) = match longest (map mat xs) 0 (-1)%Z None with
        | None => match compileMatchers_f f (map mat (x1 :: rest)) with Some r => Some (NewBTree (mat x0) None (Some r)) | None => None end
        | Some (idx, val) =>
          match (match firstn idx (map mat xs) with [] => Some None | _ => match compileMatchers_f f (firstn idx (map mat xs)) with Some x => Some (Some x) | None => None end end),
                (match skipn (S idx) (map mat xs) with [] => Some None | _ => match compileMatchers_f f (skipn (S idx) (map mat xs)) with Some x => Some (Some x) | None => None end end) with
          | Some l', Some r' => Some (NewBTree val l' r') | _, _ => None end end).
    { cbn [compileMatchers_f]. pose proof (glue_none xs A) as G. unfold xs in G |- *. cbn [map] in G |- *. rewrite G. reflexivity. }
    rewrite CM. clear CM. destruct (longest_text xs A L2) as [a [t [b [E LG]]]]. rewrite LG. clear LG. rewrite E in *. clearbody xs. clear x0 x1 rest Ne E xs.
    rewrite map_app. cbn [map mat]. rewrite firstn_app, map_length, Nat.sub_diag, firstn_O, app_nil_r. rewrite firstn_all2 by (rewrite map_length; lia).
    assert (SK : skipn (S (length a)) (map mat a ++ MText t :: map mat b) = map mat b) by (rewrite skipn_app, map_length; rewrite skipn_all2 by (rewrite map_length; lia); replace (S (length a) - length a) with 1 by lia; reflexivity). rewrite SK. clear SK.
    apply Forall_app in F. destruct F as [Fa F]. inversion F as [|? ? Ot Fb]; subst. destruct Ot as [Vt Nt]. rewrite app_length in L, L2. cbn [length] in L, L2. pose proof (alternate_app a (ET t :: b) A) as [Aa Ab]. apply alternate_tail in Ab.
    assert (SL : exists l, (match map mat a with [] => Some None | _ => match compileMatchers_f f (map mat a) with Some x => Some (Some x) | None => None end end) = Some l /\ ocompiled a l).
    { destruct a as [|y a'] eqn:Ea; [exists None; split; reflexivity|]. rewrite <- Ea in *. destruct (IH a) as [m [Em Cm]]; [lia|rewrite Ea; discriminate|exact Fa|exact Aa|]. exists (Some m). split; [rewrite Em; rewrite Ea; reflexivity|]. split; [exact Cm|]. split; [rewrite Ea; discriminate|].
      assert (Na : a <> []) by (rewrite Ea; discriminate). destruct (exists_last Na) as [a0 [z Ez]]. rewrite Ez in A. pose proof (last_before_text _ _ _ _ A) as Z1. rewrite Ez. split; [exists z; split; [apply in_or_app; right; left; reflexivity|exact Z1]|].
      intros [p [q X]]. change [ET p; ES; ET q] with ([ET p; ES] ++ [ET q]) in X. apply app_inj_tail in X. destruct X as [_ ->]. discriminate. }
    assert (SR : exists r, (match map mat b with [] => Some None | _ => match compileMatchers_f f (map mat b) with Some x => Some (Some x) | None => None end end) = Some r /\ ocompiled b r).
    { destruct b as [|y b'] eqn:Eb; [exists None; split; reflexivity|]. rewrite <- Eb in *. destruct (IH b) as [m [Em Cm]]; [lia|rewrite Eb; discriminate|exact Fb|exact Ab|]. exists (Some m). split; [rewrite Em; rewrite Eb; reflexivity|]. split; [exact Cm|]. split; [rewrite Eb; discriminate|].
      rewrite Eb in A. pose proof (first_after_text _ _ _ _ A) as Z1. rewrite Eb. split; [exists y; split; [left; reflexivity|exact Z1]|]. intros [p [q X]]. injection X as -> _. discriminate. }
    destruct SL as [l [-> Cl]]. destruct SR as [r [-> Cr]]. exists (NewBTree (MText t) l r). split; [reflexivity|].
    destruct (ocompiled_side _ _ Cl) as [Hl [Rl Ll]]. destruct (ocompiled_side _ _ Cr) as [Hr [Rr Lr]].
    assert (NN : ~ (a = [] /\ b = [])) by (intros [-> ->]; cbn in L2; lia).
    assert (EB : NewBTree (MText t) l r = MBTree (MText t) l r (olen l) (olen r) (-1)).
    { unfold NewBTree. fold (olen l). fold (olen r). f_equal. assert (X : negb (olen l =? -1)%Z && negb (olen r =? -1)%Z = false).
      { rewrite Ll, Lr. destruct a; [destruct b; [exfalso; apply NN; auto|reflexivity]|reflexivity]. }
      destruct (negb (Len (MText t) =? -1)%Z); cbn [andb]; [|reflexivity]. rewrite X. reflexivity. }
    rewrite EB. split; [intros _; reflexivity|]. intros NS.
    destruct (optimize_cases t l r (olen l) (olen r) (-1) a b Hl Hr NN NS) as [[-> [-> ->]]|[[-> [-> ->]]|[[-> [-> ->]]|[[e [-> [-> ->]]]|[[e [-> [-> ->]]]| ->]]]]].
    + split; [exact I|]. apply (rgt_iff _ _ _ (fun s => iff_sym (lang_mid _ _ _ s))). eapply rgt_iff; [|apply contains_rgt]. intros s. cbn beta. setoid_rewrite lang_one. cbn. split; [intros [u [v E]]; exists u, v; auto|intros [u [v [E _]]]; exists u, v; exact E].
    + split; [reflexivity|]. apply (rgt_iff _ _ _ (fun s => iff_sym (lang_mid _ _ _ s))). eapply rgt_iff; [|apply suffix_rgt]. intros s. cbn beta. setoid_rewrite lang_one. cbn. split; [intros [u ->]; exists u, []; rewrite app_nil_r; auto|intros [u [v [-> [_ ->]]]]; exists u; rewrite app_nil_r; reflexivity].
    + split; [reflexivity|]. apply (rgt_iff _ _ _ (fun s => iff_sym (lang_mid _ _ _ s))). eapply rgt_iff; [|apply prefix_rgt]. intros s. cbn beta. setoid_rewrite lang_one. cbn. split; [intros [u ->]; exists [], u; auto|intros [u [v [-> [-> _]]]]; exists v; reflexivity].
    + split; [exact I|]. apply (rgt_iff _ _ _ (fun s => iff_sym (lang_mid _ _ _ s))). assert (Ae : ascii e) by (inversion Fa as [|? ? X _]; apply X). eapply rgt_iff; [|apply suffixany_rgt, Ae]. intros s. cbn beta. setoid_rewrite lang_one. cbn. split; [intros [u [-> H]]; exists u, []; rewrite app_nil_r; auto|intros [u [v [-> [H ->]]]]; exists u; rewrite app_nil_r; auto].
    + split; [exact I|]. apply (rgt_iff _ _ _ (fun s => iff_sym (lang_mid _ _ _ s))). assert (Ae : ascii e) by (inversion Fb as [|? ? X _]; apply X). eapply rgt_iff; [|apply prefixany_rgt, Ae]. intros s. cbn beta. setoid_rewrite lang_one. cbn. split; [intros [u [-> H]]; exists [], u; auto|intros [u [v [-> [-> H]]]]; exists v; auto].
    + split; [exact I|]. apply (rgt_iff _ _ _ (fun s => iff_sym (lang_mid _ _ _ s))). unfold Match. rewrite sem_btree. cbn [sMatch]. apply btree_text; try assumption; rewrite ?Ll, ?Lr; [destruct a|destruct b]; cbn; auto.
Qed.
