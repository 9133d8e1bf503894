(** * Proofs: a compiled glob is linear in its pattern. *)
From Coq Require Import String.
From Coq Require Import ZArith Arith List Bool Lia.
From Verif Require Import Utf8 GoStr GlobLex GlobMatch GlobCompile GlobSpec GlobParse GlobGram GlobFactor GlobSizeSpec.
Import ListNotations.
Local Open Scope nat_scope.

(** ** Matchers *)
Definition osize (o : option Matcher) : nat := match o with Some x => size x | None => 0 end.
Lemma size_btree v l r a b c : size (MBTree v l r a b c) = S (size v + osize l + osize r).
Proof. reflexivity. Qed.
Lemma size_pos m : 1 <= size m.
Proof. destruct m; cbn [size]; lia. Qed.
Lemma encode_le4 c : length (encode c) <= 4.
Proof. unfold encode. repeat (match goal with |- context [if ?b then _ else _] => destruct b end; try (cbn [length]; lia)). Qed.

Section Weight.
Variable K : nat.      (* the number of separators *)
(** NNothing 3, a group 3 more than its parts, a leaf 6 (more with its text, separators or characters). *)
Fixpoint wt (n : Node) : nat :=
  match n with
  | NNothing => 3
  | NPattern ns | NAnyOf ns => 3 + list_sum (map wt ns)
  | NText t => 6 + length t
  | NList _ chars => 6 + 4 * length (runes chars)
  | NAny | NSingle => 6 + 4 * K
  | _ => 6
  end.
Definition tot (ns : list Node) : nat := sum wt ns.
Lemma tot_map ns : list_sum (map wt ns) = tot ns.
Proof. unfold tot, sum. induction ns as [|n ns IH]; [reflexivity|]. cbn [map fold_right list_sum]. unfold list_sum in IH. cbn [fold_right] in IH |- *. lia. Qed.
Lemma wt_pattern ns : wt (NPattern ns) = 3 + tot ns.
Proof. cbn [wt]. rewrite tot_map. reflexivity. Qed.
Lemma wt_anyof ns : wt (NAnyOf ns) = 3 + tot ns.
Proof. cbn [wt]. rewrite tot_map. reflexivity. Qed.
Lemma wt_pos n : 3 <= wt n.
Proof. destruct n; cbn [wt]; lia. Qed.
Lemma tot_app a b : tot (a ++ b) = tot a + tot b.
Proof. apply sum_app. Qed.
Lemma tot_cons n ns : tot (n :: ns) = wt n + tot ns.
Proof. reflexivity. Qed.
Lemma tot_rev ns : tot (rev ns) = tot ns.
Proof. induction ns as [|n ns IH]; [reflexivity|]. cbn [rev]. rewrite tot_app, !tot_cons, IH. change (tot []) with 0. lia. Qed.

(** In every pattern each part weighs at least 6, and no group of alternatives is empty. *)
Fixpoint hv (n : Node) : Prop :=
  let fix all (P : Node -> Prop) (ns : list Node) {struct ns} : Prop := match ns with [] => True | n :: t => P n /\ hv n /\ all P t end in
  match n with NPattern ns => all (fun x => 6 <= wt x) ns | NAnyOf ns => ns <> [] /\ all (fun _ => True) ns | _ => True end.
Lemma hv_all P ns : (fix all (P : Node -> Prop) (ns : list Node) {struct ns} : Prop := match ns with [] => True | n :: t => P n /\ hv n /\ all P t end) P ns <-> Forall (fun x => P x /\ hv x) ns.
Proof. induction ns as [|n ns IH]; [split; auto|]. rewrite Forall_cons_iff, <- IH. intuition. Qed.
Lemma hv_pattern ns : hv (NPattern ns) <-> Forall (fun x => 6 <= wt x /\ hv x) ns.
Proof. rewrite <- hv_all. reflexivity. Qed.
Lemma hv_anyof ns : hv (NAnyOf ns) <-> ns <> [] /\ Forall (fun x => True /\ hv x) ns.
Proof. rewrite <- hv_all. reflexivity. Qed.
Lemma tot_heavy ns : Forall (fun x => 6 <= wt x /\ hv x) ns -> 6 * length ns <= tot ns.
Proof. induction 1 as [|x ns [H _] F IH]; [cbn; lia|]. rewrite tot_cons. cbn [length]. lia. Qed.

(** ** Factoring *)
Lemma append_unique_tot acc v : tot (appendIfUnique acc v) <= tot acc + wt v.
Proof. unfold appendIfUnique. destruct (existsb _ _); [lia|]. rewrite tot_app, tot_cons. change (tot []) with 0. lia. Qed.
Lemma fold_unique_tot (g : Node -> Node) ch : forall acc, tot (fold_left (fun acc c => appendIfUnique acc (g c)) ch acc) <= tot acc + sum (fun c => wt (g c)) ch.
Proof.
  induction ch as [|c ch IH]; intros acc; cbn [fold_left]; [unfold sum; cbn; lia|].
  pose proof (IH (appendIfUnique acc (g c))). pose proof (append_unique_tot acc (g c)).
  change (sum (fun c0 => wt (g c0)) (c :: ch)) with (wt (g c) + sum (fun c0 => wt (g c0)) ch). lia.
Qed.
Lemma fold_unique_in (g : Node -> Node) ch x : forall acc, In x (fold_left (fun acc c => appendIfUnique acc (g c)) ch acc) -> In x acc \/ exists c, In c ch /\ x = g c.
Proof.
  induction ch as [|c ch IH]; intros acc; cbn [fold_left]; [auto|]. intros H. apply IH in H. destruct H as [H|[c' [I E]]].
  - unfold appendIfUnique in H. destruct (existsb _ _); [auto|]. apply in_app_iff in H. destruct H as [H|[H|[]]]; [auto|]. right. exists c. split; [left; reflexivity|auto].
  - right. exists c'. split; [right; exact I|exact E].
Qed.
Lemma factored_size ch n' : minimizeTreeAnyOf ch = Some n' -> hv (NAnyOf ch) -> hv n' /\ wt n' <= wt (NAnyOf ch).
Proof.
  unfold minimizeTreeAnyOf. destruct (forallb is_pattern ch) eqn:FP; [|discriminate]. cbn [negb]. destruct (commonChildren ch) as [cl cr] eqn:CC.
  destruct ((length cl =? 0) && (length cr =? 0)) eqn:Z0; [discriminate|].
  assert (NZ : cl <> [] \/ cr <> []). { destruct cl; [right; intros ->; discriminate|left; discriminate]. }
  destruct (common_spec ch cl cr CC NZ) as [L2 FT]. set (g := rest_node (length cl) (length cr)).
  set (rests := fold_left (fun acc c => appendIfUnique acc (g c)) ch []). intros E HV. injection E as <-.
  apply (proj1 (hv_anyof _)) in HV. destruct HV as [_ HV].
  assert (SH : forall c, In c ch -> exists mid, c = NPattern (cl ++ mid ++ cr) /\ g c = match mid with [] => NNothing | _ => NPattern mid end).
  { intros c I. rewrite forallb_forall in FP. specialize (FP c I). destruct c as [|ns| | | | | | |]; try discriminate.
    rewrite Forall_forall in FT. destruct (FT _ I) as [F1 F2]. cbn [children] in F1, F2. pose proof (fits_split _ _ _ F1 F2) as E. unfold g, rest_node. cbn [children].
    eexists. split; [f_equal; exact E|]. destruct (firstn _ _); reflexivity. }
  assert (HS : forall c mid, In c ch -> c = NPattern (cl ++ mid ++ cr) -> Forall (fun x => 6 <= wt x /\ hv x) cl /\ Forall (fun x => 6 <= wt x /\ hv x) mid /\ Forall (fun x => 6 <= wt x /\ hv x) cr).
  { intros c mid I ->. rewrite Forall_forall in HV. destruct (HV _ I) as [_ H]. apply (proj1 (hv_pattern _)) in H. rewrite !Forall_app in H. tauto. }
  assert (HC : Forall (fun x => 6 <= wt x /\ hv x) cl /\ Forall (fun x => 6 <= wt x /\ hv x) cr).
  { destruct ch as [|c ch']; [cbn in L2; lia|]. destruct (SH c (or_introl eq_refl)) as [mid [E _]]. destruct (HS c mid (or_introl eq_refl) E) as [A [_ B]]. auto. }
  destruct HC as [HL HR]. pose proof (tot_heavy _ HL) as WL. pose proof (tot_heavy _ HR) as WR.
  assert (HG : forall c, In c ch -> hv (g c) /\ (g c = NNothing \/ 6 <= wt (g c))).
  { intros c I. destruct (SH c I) as [mid [E ->]]. destruct (HS c mid I E) as [_ [M _]]. destruct mid as [|x mid]; [split; [exact Logic.I|auto]|].
    split; [apply hv_pattern; exact M|]. right. rewrite wt_pattern. pose proof (tot_heavy _ M). cbn [length] in *. lia. }
  assert (HRs : forall x, In x rests -> hv x /\ (x = NNothing \/ 6 <= wt x)).
  { intros x I. apply fold_unique_in in I. destruct I as [[]|[c [I ->]]]. auto. }
  assert (W : forall c, In c ch -> wt (g c) + (tot cl + tot cr) <= wt c).
  { intros c I. destruct (SH c I) as [mid [-> ->]]. rewrite wt_pattern, !tot_app. destruct mid as [|m mid]; [cbn [wt]; change (tot []) with 0; lia|]. rewrite wt_pattern. lia. }
  pose proof (sum_split ch (fun c => wt (g c)) wt _ W) as SP. fold (tot ch) in SP.
  pose proof (fold_unique_tot g ch []) as FU. fold rests in FU. change (tot []) with 0 in FU. clearbody rests. split.
  - apply hv_pattern. rewrite !Forall_app.
    assert (O : forall c, Forall (fun x => 6 <= wt x /\ hv x) c -> Forall (fun x => 6 <= wt x /\ hv x) (if length c =? 0 then [] else [NPattern c])).
    { intros c F. pose proof (tot_heavy _ F) as T. destruct c as [|x c]; [constructor|]. cbn [length Nat.eqb] in *. constructor; [|constructor]. split; [rewrite wt_pattern; lia|apply hv_pattern; exact F]. }
    split; [apply O, HL|]. split; [|apply O, HR].
    assert (G : forall x y l, (forall z, In z (x :: y :: l) -> hv z) -> Forall (fun x => 6 <= wt x /\ hv x) [NAnyOf (x :: y :: l)]).
    { intros x y l H. constructor; [|constructor]. split; [rewrite wt_anyof, !tot_cons; pose proof (wt_pos x); pose proof (wt_pos y); lia|].
      apply hv_anyof. split; [discriminate|]. rewrite Forall_forall. intros z I. split; [exact Logic.I|auto]. }
    destruct rests as [|x [|y l]]; [constructor| |].
    + destruct (HRs x (or_introl eq_refl)) as [H Q]. destruct x; try (constructor; [split; [destruct Q as [Q|Q]; [discriminate Q|exact Q]|exact H]|constructor]). constructor.
    + specialize (G x y l (fun z I => proj1 (HRs z I))). destruct x; exact G.
  - assert (M : tot (match rests with [] => [] | [NNothing] => [] | [n] => [n] | _ => [NAnyOf rests] end) <= 3 + tot rests).
    { clear. destruct rests as [|n0 [|n1 rs]]; [cbn; lia| |].
      - destruct n0; rewrite ?tot_cons; change (tot []) with 0; lia.
      - assert (T : tot [NAnyOf (n0 :: n1 :: rs)] <= 3 + tot (n0 :: n1 :: rs)) by (rewrite (tot_cons (NAnyOf _)), wt_anyof; change (tot []) with 0; lia). destruct n0; exact T. }
    assert (O : forall c, tot (if length c =? 0 then [] else [NPattern c]) <= tot c + 3 * Nat.min 1 (length c)).
    { intros c. destruct c as [|n c]; [cbn; lia|]. cbn [length Nat.eqb]. rewrite (tot_cons (NPattern _)), wt_pattern. change (tot []) with 0. lia. }
    rewrite wt_pattern, !tot_app, wt_anyof. pose proof (O cl). pose proof (O cr).
    assert (N1 : 1 <= length cl + length cr) by (destruct NZ as [N|N]; [destruct cl|destruct cr]; try (contradiction N; reflexivity); cbn [length]; lia).
    assert (2 * (tot cl + tot cr) <= length ch * (tot cl + tot cr)) by (apply Nat.mul_le_mono_r; exact L2).
    assert (3 * Nat.min 1 (length cl) + 3 * Nat.min 1 (length cr) + 3 <= tot cl + tot cr) by lia. lia.
Qed.

(** ** optimizeMatcher, glueMatchers, minimizeMatchers, compileMatchers *)
Lemma optimize_size : forall k m, size m <= k -> size (optimizeMatcher m) <= size m.
Proof.
  induction k as [|k IH]; intros m L; [pose proof (size_pos m); lia|].
  destruct m as [t|[|? ?]| |sp|[|c [|? ?]] []|lo hi n| |n|n|t n|t|t|t sp|t sp|t u|[|x [|? ?]]|ms|v l r a b c|ms n]; cbn [optimizeMatcher]; try lia.
  - cbn [size length]. lia.
  - cbn [size length]. pose proof (encode_le4 c). lia.
  - cbn [size map list_sum fold_right]. lia.
  - rewrite size_btree in *.
    assert (O : forall o, osize o <= k -> osize (match o with Some x => Some (optimizeMatcher x) | None => None end) <= osize o).
    { intros [x|] H; [|cbn; lia]. cbn [osize] in *. apply IH, H. }
    pose proof (O l ltac:(lia)) as A. pose proof (O r ltac:(lia)) as B. clear O IH.
    set (l' := match l with Some x => Some (optimizeMatcher x) | None => None end) in *. set (r' := match r with Some x => Some (optimizeMatcher x) | None => None end) in *. clearbody l' r'.
    assert (D : size (MBTree v l' r' a b c) <= S (size v + osize l + osize r)) by (rewrite size_btree; lia).
    destruct v; try exact D. cbn [size] in D.
    destruct l' as [[]|]; try exact D; destruct r' as [[]|]; try exact D; cbn [osize size] in *; lia.
Qed.
Lemma optimize_le m : size (optimizeMatcher m) <= size m.
Proof. exact (optimize_size _ m (Nat.le_refl _)). Qed.
(** Each matcher and 2 more. *)
Definition pot (ms : list Matcher) : nat := list_sum (map (fun m => size m + 2) ms).
Lemma pot_cons m ms : pot (m :: ms) = size m + 2 + pot ms.
Proof. reflexivity. Qed.
Lemma pot_app a b : pot (a ++ b) = pot a + pot b.
Proof. unfold pot. rewrite map_app. apply list_sum_app. Qed.
Lemma pot_sizes ms : list_sum (map size ms) + 2 * length ms = pot ms.
Proof. induction ms as [|m ms IH]; [reflexivity|]. rewrite pot_cons. cbn [map length]. change (list_sum (size m :: map size ms)) with (size m + list_sum (map size ms)). lia. Qed.
Lemma utf8_le4 rs : length (utf8 rs) <= 4 * length rs.
Proof. unfold utf8. induction rs as [|c rs IH]; [cbn; lia|]. cbn [map concat length]. rewrite app_length. pose proof (encode_le4 c). lia. Qed.
Lemma zs_eqb_eq a b : zs_eqb a b = true -> a = b.
Proof. unfold zs_eqb. destruct (list_eq_dec _ _ _); [auto|discriminate]. Qed.
Lemma glue_kinds_size sep : forall ms ks, glue_kinds sep ms = Some ks -> length ks = length ms /\ (sep <> [] -> (1 + 4 * length sep) * length ms <= list_sum (map size ms)).
Proof.
  induction ms as [|m ms IH]; intros ks H; cbn [glue_kinds] in H; [injection H as <-; split; [reflexivity|cbn; lia]|].
  destruct (glue_kind m) as [[s k]|] eqn:G; [|discriminate]. destruct (zs_eqb s sep) eqn:Z; [|discriminate]. apply zs_eqb_eq in Z. subst s.
  destruct (glue_kinds sep ms) as [ks'|] eqn:E; [|discriminate]. injection H as <-. destruct (IH _ eq_refl) as [L P]. split; [cbn [length]; lia|]. intros N. specialize (P N).
  cbn [map length]. change (list_sum (size m :: map size ms)) with (size m + list_sum (map size ms)).
  assert (1 + 4 * length sep <= size m).
  { destruct m; cbn [glue_kind] in G; try discriminate G; try (injection G as <- _; cbn [size]; lia).
    - injection G as <- _. contradiction.
    - destruct not; [|discriminate G]. injection G as <- _. cbn [size]. lia. }
  lia.
Qed.
Lemma sizes_ge ms : length ms <= list_sum (map size ms).
Proof. induction ms as [|m ms IH]; [cbn; lia|]. cbn [map length]. change (list_sum (size m :: map size ms)) with (size m + list_sum (map size ms)). pose proof (size_pos m). lia. Qed.
Lemma glue_size ms g : glueMatchers ms = Some g -> size g + 2 <= pot ms.
Proof.
  rewrite <- pot_sizes. unfold glueMatchers. destruct (glueMatchersAsEvery ms) as [e|] eqn:E.
  - intros H. injection H as <-. unfold glueMatchersAsEvery in E. destruct (Nat.leb_spec (length ms) 1) as [L|L]; [discriminate|].
    pose proof (sizes_ge ms) as SG. destruct ms as [|m0 rest] eqn:Em; [discriminate|]. rewrite <- Em in *.
    destruct (glue_kind m0) as [[sep k]|]; [|discriminate]. destruct (glue_kinds sep ms) as [ks|] eqn:GK; [|discriminate]. destruct (glue_kinds_size _ _ _ GK) as [_ P].
    assert (Q : 4 * length sep + length ms <= list_sum (map size ms)). { destruct sep as [|s0 sep]; [cbn [length]; lia|]. specialize (P ltac:(discriminate)). nia. }
    clear P GK Em rest m0. pose proof (utf8_le4 sep) as U. cbv zeta in E.
    destruct (existsb is_super ks && negb (existsb is_any ks) && negb (existsb is_one ks)); [injection E as <-; cbn [size]; lia|].
    destruct (existsb is_any ks && negb (existsb is_super ks) && negb (existsb is_one ks)); [injection E as <-; cbn [size]; lia|].
    destruct ((existsb is_any ks || existsb is_super ks) && (0 <? length (filter is_one ks)) && (length sep =? 0)); [injection E as <-; cbn [size]; lia|].
    injection E as <-. cbn [size]. rewrite map_app, list_sum_app.
    assert (A : list_sum (map size (if 0 <? length (filter is_one ks) then MMin (length (filter is_one ks)) :: (if negb (existsb is_any ks) && negb (existsb is_super ks) then [MMax (length (filter is_one ks))] else []) else [])) <= 2).
    { destruct (0 <? _); [|cbn; lia]. destruct (_ && _); cbn; lia. }
    assert (B : list_sum (map size (if 0 <? length sep then [MContains (utf8 sep) true] else [])) <= 1 + 4 * length sep).
    { clear A. destruct (0 <? length sep); unfold list_sum; cbn [map size fold_right]; lia. }
    lia.
  - unfold glueMatchersAsRow. destruct (Nat.leb_spec (length ms) 1) as [L|L]; [discriminate|]. destruct (existsb _ ms); [discriminate|]. intros H. injection H as <-. cbn [size]. lia.
Qed.
Lemma skipn_twice {A} a : forall b (l : list A), skipn a (skipn b l) = skipn (a + b) l.
Proof. induction b as [|b IH]; intros l; [rewrite Nat.add_0_r; reflexivity|]. rewrite Nat.add_succ_r. destruct l as [|x l]; [cbn; apply skipn_nil|]. cbn [skipn]. apply IH. Qed.
Lemma slice_pot ms l r : l <= r -> pot (firstn l ms) + pot (firstn (r - l) (skipn l ms)) + pot (skipn r ms) = pot ms.
Proof.
  intros L. assert (T : forall k xs, pot (firstn k xs) + pot (skipn k xs) = pot xs) by (intros k xs; rewrite <- pot_app, firstn_skipn; reflexivity).
  pose proof (T l ms). pose proof (T (r - l) (skipn l ms)) as T2. rewrite skipn_twice in T2. replace (r - l + l) with r in T2 by lia. lia.
Qed.
Lemma consider_size ms : forall ls b, (forall l r, In (l, r) ls -> l <= r) -> (forall d l r, b = Some (d, l, r) -> l <= r /\ size d + 2 <= pot (firstn (r - l) (skipn l ms))) ->
  forall d l r, fold_left (consider ms) ls b = Some (d, l, r) -> l <= r /\ size d + 2 <= pot (firstn (r - l) (skipn l ms)).
Proof.
  induction ls as [|[l0 r0] ls IH]; intros b I B d l r H; cbn [fold_left] in H; [exact (B _ _ _ H)|].
  eapply IH; [intros x y J; apply I; right; exact J| |exact H]. clear H d l r. intros d l r H. unfold consider in H.
  destruct (glueMatchers (firstn (r0 - l0) (skipn l0 ms))) as [g|] eqn:G; [|exact (B _ _ _ H)]. apply glue_size in G.
  assert (L0 : l0 <= r0) by (apply I; left; reflexivity).
  destruct b as [[[d' dl] dr]|]; [destruct (_ || _)|].
  - injection H as <- <- <-. auto.
  - exact (B _ _ _ H).
  - injection H as <- <- <-. auto.
Qed.
Lemma slices_le n l r : In (l, r) (slices n) -> l <= r.
Proof.
  unfold slices. intros H. apply in_flat_map in H. destruct H as [l' [_ H]]. apply in_map_iff in H. destruct H as [k [E I]]. injection E as <- <-. apply in_seq in I. lia.
Qed.
Lemma minimize_size : forall fuel ms, pot (minimize_f fuel ms) <= pot ms.
Proof.
  induction fuel as [|f IH]; intros ms; cbn [minimize_f]; [lia|].
  destruct (fold_left (consider ms) (slices (length ms)) None) as [[[d l] r]|] eqn:E; [|lia].
  apply consider_size in E; [|intros x y; apply slices_le|discriminate]. destruct E as [L P].
  assert (N : pot (firstn l ms ++ d :: skipn r ms) <= pot ms) by (rewrite pot_app, pot_cons; pose proof (slice_pot ms l r L); lia).
  destruct (_ =? _); [exact N|]. specialize (IH (firstn l ms ++ d :: skipn r ms)). lia.
Qed.
Lemma compileMatchers_size : forall fuel ms m, compileMatchers_f fuel ms = Some m -> size m <= pot ms.
Proof.
  induction fuel as [|f IH]; intros ms m H; [discriminate|]. cbn [compileMatchers_f] in H.
  destruct ms as [|m0 [|m1 rest]]; [discriminate|injection H as <-; rewrite pot_cons; lia|].
  set (ms := m0 :: m1 :: rest) in *. destruct (glueMatchers ms) as [g|] eqn:G.
  { injection H as <-. apply glue_size in G. lia. }
  destruct (longest ms 0 (-1)%Z None) as [[idx v]|] eqn:E.
  - apply longest_spec in E. destruct E as [E|[j [-> E]]]; [discriminate|]. cbn [plus] in H.
    assert (SP : pot (firstn j ms) + (size v + 2) + pot (skipn (S j) ms) = pot ms).
    { clear - E. clearbody ms. revert j E. induction ms as [|x ms IH]; intros [|j] E; cbn in E; try discriminate.
      - injection E as ->. cbn [firstn skipn]. rewrite pot_cons. change (pot []) with 0. lia.
      - specialize (IH j E). cbn [firstn]. change (skipn (S (S j)) (x :: ms)) with (skipn (S j) ms). rewrite !pot_cons. lia. }
    assert (Sd : forall l o, (match l with [] => Some None | _ => match compileMatchers_f f l with Some x => Some (Some x) | None => None end end) = Some o -> osize o <= pot l).
    { intros l o Q. destruct l as [|x l]; [injection Q as <-; cbn; lia|]. destruct (compileMatchers_f f (x :: l)) as [y|] eqn:C; [|discriminate]. injection Q as <-. apply IH in C. exact C. }
    pose proof (Sd (firstn j ms)) as SL. pose proof (Sd (skipn (S j) ms)) as SR. clear Sd.
    destruct (match firstn j ms with [] => Some None | _ => _ end) as [lo|]; [|discriminate]. destruct (match skipn (S j) ms with [] => Some None | _ => _ end) as [ro|]; [|discriminate].
    specialize (SL lo eq_refl). specialize (SR ro eq_refl). injection H as <-. unfold NewBTree. rewrite size_btree. lia.
  - destruct (compileMatchers_f f (m1 :: rest)) as [r|] eqn:C; [|discriminate]. injection H as <-. apply IH in C. unfold NewBTree. rewrite size_btree. cbn [osize]. subst ms. rewrite pot_cons. lia.
Qed.

(** ** compile *)
Lemma map_opt_size (f : Node -> option Matcher) : forall ns ms, (forall n m, In n ns -> f n = Some m -> size m + 2 <= wt n) ->
  map_opt (fun c => option_map optimizeMatcher (f c)) ns = Some ms -> pot ms <= tot ns.
Proof.
  induction ns as [|n ns IH]; intros ms H E; cbn [map_opt] in E; [injection E as <-; cbn; lia|].
  destruct (f n) as [m|] eqn:F; [|discriminate]. cbn [option_map] in E. destruct (map_opt _ ns) as [ms'|] eqn:M; [|discriminate]. injection E as <-.
  specialize (IH _ (fun x y I => H x y (or_intror I)) eq_refl). specialize (H n m (or_introl eq_refl) F). rewrite pot_cons, tot_cons. pose proof (optimize_le m). lia.
Qed.
Lemma compile_size sep : length sep = K -> forall fuel n m, hv n -> compile_f fuel n sep = Some m -> size m + 2 <= wt n.
Proof.
  intros LK. induction fuel as [|f IH]; intros n m HV H; [discriminate|]. cbn [compile_f] in H. destruct n as [|ch|not chars|not lo hi|t| | | |ch].
  - injection H as <-. cbn [size wt]. lia.
  - apply (proj1 (hv_pattern _)) in HV. rewrite wt_pattern. destruct ch as [|c ch]; [injection H as <-; cbn [size]; lia|].
    destruct (map_opt _ (c :: ch)) as [ms|] eqn:E; [|discriminate].
    apply map_opt_size in E; [|intros x y I; apply IH; rewrite Forall_forall in HV; apply (HV x I)].
    unfold compileMatchers in H. destruct (compileMatchers_f _ _) as [g|] eqn:C; [|discriminate]. injection H as <-. apply compileMatchers_size in C.
    pose proof (optimize_le g). pose proof (minimize_size (length ms) ms). unfold minimizeMatchers in C. lia.
  - injection H as <-. pose proof (optimize_le (MList (runes chars) not)) as O. cbn [optimizeMatcher] in O. cbn [size wt] in *. lia.
  - injection H as <-. cbn [size wt]. lia.
  - injection H as <-. cbn [size wt]. lia.
  - injection H as <-. pose proof (optimize_le (MAny sep)) as O. cbn [size wt optimizeMatcher] in *. lia.
  - injection H as <-. cbn [size wt]. lia.
  - injection H as <-. cbn [size wt]. lia.
  - destruct (minimizeTreeAnyOf ch) as [n'|] eqn:F.
    + destruct (factored_size _ _ F HV) as [HV' L]. specialize (IH _ _ HV' H). lia.
    + apply (proj1 (hv_anyof _)) in HV. destruct HV as [_ HV]. destruct (map_opt _ ch) as [ms|] eqn:E; [|discriminate].
      apply map_opt_size in E; [|intros x y I; apply IH; rewrite Forall_forall in HV; apply (HV x I)].
      injection H as <-. rewrite wt_anyof. cbn [size]. pose proof (pot_sizes ms). lia.
Qed.

(** ** Parsing *)
Lemma read_bytes s r s' : bytes s -> read s = Some (r, s') -> bytes s'.
Proof.
  intros B. destruct s as [|c s]; [intros H; injection H as _ <-; exact B|]. unfold read. destruct (decode (c :: s)) as [q w]. destruct (_ =? _)%Z; [discriminate|].
  intros H. injection H as _ <-. unfold bytes in *. rewrite <- (firstn_skipn w (c :: s)) in B. apply Forall_app in B. apply B.
Qed.
Lemma read_len s r s' : bytes s -> read s = Some (r, s') -> r <> 0%Z -> length (encode r) + length s' = length s.
Proof.
  intros B. destruct s as [|c s]; [intros H; injection H as <- _; contradiction|]. unfold read. destruct (decode (c :: s)) as [q w] eqn:D. destruct (Z.eqb_spec q RuneError) as [E|E]; [discriminate|].
  intros H _. injection H as <- <-. destruct (decode_inv _ _ _ B D E) as [_ Eq]. apply (f_equal (@length Z)) in Eq. rewrite app_length in Eq. lia.
Qed.
Lemma utf8_app_len a b : length (utf8 (a ++ b)) = length (utf8 a) + length (utf8 b).
Proof. unfold utf8. rewrite map_app, concat_app, app_length. reflexivity. Qed.
Lemma fetchText_bytes fuel : forall br esc s data d s', bytes s -> fetchText fuel br esc s data = Some (d, s') -> bytes s' /\ length (utf8 d) + length s' <= length (utf8 (rev data)) + length s.
Proof.
  induction fuel as [|f IH]; intros br esc s data d s' B H; cbn [fetchText] in H.
  - injection H as <- <-. split; [exact B|lia].
  - destruct (read s) as [[r s1]|] eqn:R; [|discriminate]. pose proof (read_le _ _ _ R). pose proof (read_bytes _ _ _ B R) as B1.
    destruct (Z.eqb_spec r 0) as [Z|Z]; [injection H as <- <-; split; [exact B1|lia]|]. pose proof (read_len _ _ _ B R Z) as L.
    destruct (_ && _). { apply IH in H; [|exact B1]. destruct H as [X Y]. split; [exact X|lia]. }
    destruct (_ && _). { injection H as <- <-. split; [exact B|lia]. }
    apply IH in H; [|exact B1]. destruct H as [X Y]. split; [exact X|]. cbn [rev] in Y. rewrite utf8_app_len in Y. unfold utf8 in Y at 3. cbn [map concat] in Y. rewrite app_nil_r in Y. lia.
Qed.
Lemma text_bytes br s d s' : bytes s -> text br s = Some (d, s') -> bytes s' /\ length (utf8 d) + length s' <= length s.
Proof. intros B H. exact (fetchText_bytes _ _ _ _ [] _ _ B H). Qed.
Lemma runes_le s : length (runes s) <= length s.
Proof.
  unfold runes. rewrite map_length. unfold range_str. assert (G : forall f i t, length (range_from f i t) <= f).
  { induction f as [|f IH]; intros i t; cbn [range_from]; [destruct t; cbn; lia|]. destruct t as [|c t]; [cbn; lia|]. destruct (decode (c :: t)) as [r w]. cbn [length]. specialize (IH (i + w) (skipn w (c :: t))). lia. }
  apply G.
Qed.
(** What the parser makes of the tokens of a class that took n + 1 bytes or more: at most one node, of weight 6 + 4 n at most. *)
Definition class_node (n : nat) (x : Node) : Prop := wt x <= 6 + 4 * n /\ 6 <= wt x /\ hv x.
Lemma parse_class ts k cur stk s s' : bytes s -> fetchRange s = Some (ts, s') -> bytes s' /\ length s' <= length s /\
  (parse (TRangeOpen :: ts ++ k) None cur stk = PErr \/ exists x, class_node (length s - length s') x /\ parse (TRangeOpen :: ts ++ k) None cur stk = parse k None (x :: cur) stk).
Proof.
  assert (G : forall s ts s', bytes s -> range_rest s = Some (ts, s') -> bytes s' /\ length s' <= length s /\
    forall st, rchars st = [] -> parse (ts ++ k) (Some st) cur stk = PErr \/ exists x, class_node (length s - length s') x /\ parse (ts ++ k) (Some st) cur stk = parse k None (x :: cur) stk).
  { clear ts s s'. intros s ts s' B H. pose proof (range_rest_le _ _ _ H) as LE. unfold range_rest in H. destruct (read s) as [[r s1]|] eqn:R; [|discriminate]. pose proof (read_bytes _ _ _ B R) as B1.
    destruct (_ =? 0)%Z; [discriminate|]. destruct (read s1) as [[n s2]|] eqn:R1; [|discriminate]. pose proof (read_bytes _ _ _ B1 R1) as B2.
    destruct (_ =? cBetween)%Z.
    - destruct (read s2) as [[h s3]|] eqn:R2; [|discriminate]. pose proof (read_bytes _ _ _ B2 R2) as B3. destruct (_ =? 0)%Z; [discriminate|].
      destruct (read s3) as [[c s4]|] eqn:R3; [|discriminate]. pose proof (read_bytes _ _ _ B3 R3) as B4. destruct (_ =? _)%Z; [|discriminate].
      injection H as <- <-. split; [exact B4|]. split; [exact LE|]. intros st E. cbn [app parse]. destruct (decode (encode r)) as [ra wa]. destruct (_ <? _); [auto|]. destruct (decode (encode h)) as [rb wb]. destruct (_ <? _); [auto|].
      destruct (_ <? _)%Z; [auto|]. cbn [rlo rhi rnot rchars]. rewrite E. destruct (Bool.eqb _ _); [auto|]. right. eexists. split; [|reflexivity].
      unfold class_node. destruct (_ && _); cbn [wt hv]; [split; [lia|split; [lia|exact I]]|]. change (length (runes [])) with 0. split; [lia|split; [lia|exact I]].
    - destruct (text [cRangeClose] s) as [[d s3]|] eqn:T; [|discriminate]. destruct (text_bytes _ _ _ _ B T) as [B3 L3].
      destruct (read s3) as [[c s4]|] eqn:R3; [|discriminate]. pose proof (read_bytes _ _ _ B3 R3) as B4. pose proof (read_le _ _ _ R3). destruct (_ =? _)%Z; [|discriminate].
      injection H as <- <-. split; [exact B4|]. split; [exact LE|]. intros st E. rewrite <- app_assoc. cbn [app].
      assert (Q : forall st', length (rchars st') <= length (utf8 d) -> parse (TRangeClose :: k) (Some st') cur stk = PErr \/ exists x, class_node (length s - length s4) x /\ parse (TRangeClose :: k) (Some st') cur stk = parse k None (x :: cur) stk).
      { intros st' Q. cbn [parse]. destruct (Bool.eqb _ _); [auto|]. right. eexists. split; [|reflexivity]. unfold class_node. destruct (_ && _); cbn [wt hv]; [split; [lia|split; [lia|exact I]]|].
        pose proof (runes_le (rchars st')). split; [lia|split; [lia|exact I]]. }
      destruct d as [|c0 d]; cbn [text_tok app].
      + apply Q. rewrite E. cbn [length]. lia.
      + cbn [parse]. apply Q. cbn [rchars]. lia. }
  intros B H. unfold fetchRange in H. destruct (read s) as [[r s1]|] eqn:R; [|discriminate]. pose proof (read_bytes _ _ _ B R) as B1. pose proof (read_le _ _ _ R) as L1. destruct (_ =? _)%Z.
  - destruct (range_rest s1) as [[t s2]|] eqn:E; [|discriminate]. injection H as <- <-. destruct (G _ _ _ B1 E) as [B2 [L2 P]]. split; [exact B2|]. split; [lia|]. cbn [app parse].
    destruct (P {| rnot := true; rlo := rlo rstart; rhi := rhi rstart; rchars := rchars rstart |} eq_refl) as [P1|[x [[C1 C2] P1]]]; [auto|]. right. exists x. split; [|exact P1]. split; [lia|exact C2].
  - destruct (G _ _ _ B H) as [B2 [L2 P]]. split; [exact B2|]. split; [exact L2|]. cbn [app parse]. exact (P rstart eq_refl).
Qed.
(** The weight of what the parser holds. *)
Fixpoint held (cur : list Node) (stk : Stack) : nat :=
  match stk with [] => 3 + tot cur | (alts, up) :: stk' => 6 + tot cur + tot alts + held up stk' - 0 end.
Definition parts (ns : list Node) : Prop := Forall (fun x => 6 <= wt x /\ hv x) ns.
Definition fine_stack (stk : Stack) : Prop := Forall (fun e => Forall (fun x => True /\ hv x) (fst e) /\ parts (snd e)) stk.
Lemma closed_group cur alts : parts cur -> Forall (fun x => True /\ hv x) alts -> let g := NAnyOf (rev (NPattern (rev cur) :: alts)) in wt g = 6 + tot cur + tot alts /\ 6 <= wt g /\ hv g.
Proof.
  intros P A g. assert (W : wt g = 6 + tot cur + tot alts) by (unfold g; rewrite wt_anyof, tot_rev, tot_cons, wt_pattern, tot_rev; lia). split; [exact W|]. split; [lia|].
  unfold g. apply hv_anyof. split; [cbn [rev]; intros E; apply app_eq_nil in E; destruct E as [_ E]; discriminate|]. apply Forall_rev. constructor; [|exact A]. split; [exact I|]. apply hv_pattern, Forall_rev, P.
Qed.
Lemma unwind_held : forall stk cur, parts cur -> fine_stack stk -> hv (unwind cur stk) /\ wt (unwind cur stk) = held cur stk.
Proof.
  induction stk as [|[alts up] stk IH]; intros cur P F.
  - split; [apply hv_pattern, Forall_rev, P|]. cbn [unwind held]. rewrite wt_pattern, tot_rev. reflexivity.
  - inversion F as [|e l [Fa Fu] Fs]; subst. cbn [fst snd] in *. destruct (closed_group cur alts P Fa) as [W [W6 H]]. cbn [unwind held].
    destruct (IH (NAnyOf (rev (NPattern (rev cur) :: alts)) :: up)) as [A B]; [constructor; [auto|exact Fu]|exact Fs|]. split; [exact A|]. rewrite B. destruct stk as [|[a u] stk]; cbn [held]; rewrite tot_cons, W; lia.
Qed.
Lemma held_cons x cur stk : held (x :: cur) stk = wt x + held cur stk.
Proof. destruct stk as [|[a u] stk]; cbn [held]; rewrite tot_cons; lia. Qed.
Lemma text_tok_utf8 d : text_tok d = [] \/ exists raw, raw = utf8 d /\ raw <> [] /\ text_tok d = [TText raw].
Proof. destruct d as [|c d]; [auto|]. right. exists (utf8 (c :: d)). split; [reflexivity|]. split; [|reflexivity]. unfold utf8. cbn [map concat]. pose proof (encode_nonempty c). destruct (encode c); [contradiction|discriminate]. Qed.
Lemma parse_held fuel : forall level s cur stk t, length s < fuel -> bytes s -> parts cur -> fine_stack stk -> parse (Lx level s) None cur stk = POk t ->
  hv t /\ wt t <= (7 + 4 * K) * length s + held cur stk.
Proof.
  induction fuel as [|f IH]; intros level s cur stk t L B P F H; [lia|].
  assert (CUT : forall level' s' cur' stk', length s' < length s -> bytes s' -> parts cur' -> fine_stack stk' -> held cur' stk' <= 7 + 4 * K + 7 * (length s - length s' - 1) + held cur stk ->
    parse (Lx level' s') None cur' stk' = POk t -> hv t /\ wt t <= (7 + 4 * K) * length s + held cur stk).
  { intros level' s' cur' stk' L' B' P' F' W' H'. destruct (IH level' s' cur' stk' t ltac:(lia) B' P' F' H') as [A Q]. split; [exact A|]. nia. }
  assert (LF : forall x, wt x <= 6 + 4 * K -> 6 <= wt x -> hv x -> forall level' s', length s' < length s -> bytes s' -> parse (Lx level' s') None (x :: cur) stk = POk t -> hv t /\ wt t <= (7 + 4 * K) * length s + held cur stk).
  { intros x W W6 Hx level' s' L' B' H'. eapply CUT; [exact L'|exact B'| |exact F| |exact H']; [constructor; [auto|exact P]|]. rewrite held_cons. lia. }
  destruct (fetchItem level s) as [[[ts l'] s']|] eqn:FI; [|rewrite Lx_step, FI in H; discriminate].
  destruct (fetchItem_inv _ _ _ _ _ FI) as [->|[I G]]; [rewrite Lx_step, FI in H; cbn [parse] in H; injection H as <-; destruct (unwind_held stk cur P F) as [A Q]; split; [exact A|lia]|].
  rewrite (Lx_item _ _ _ _ _ FI (item_not_eof _ _ _ I)) in H. clear I IH.
  unfold fetchItem in FI. destruct (read s) as [[r s1]|] eqn:R; [|discriminate]. pose proof (read_bytes _ _ _ B R) as B1.
  assert (TX : forall br, match text br s with Some (data, s2) => Some (text_tok data, level, s2) | None => None end = Some (ts, l', s') -> hv t /\ wt t <= (7 + 4 * K) * length s + held cur stk).
  { intros br E. destruct (text br s) as [[d s2]|] eqn:T; [|discriminate]. injection E as <- <- <-. destruct (text_bytes _ _ _ _ B T) as [B2 L2]. destruct (text_tok_utf8 d) as [E|[raw [E [N E2]]]].
    - rewrite E in H. cbn [app] in H. eapply CUT; [exact G|exact B2|exact P|exact F|lia|exact H].
    - rewrite E2 in H. cbn [app parse] in H. eapply CUT; [exact G|exact B2| |exact F| |exact H]; [constructor; [split; [cbn [wt]; lia|exact I]|exact P]|].
      rewrite held_cons. cbn [wt]. rewrite <- E in L2. lia. }
  destruct (Z.eqb_spec r 0) as [Z|NZ]. { injection FI as <- <- <-. cbn [app parse] in H. injection H as <-. destruct (unwind_held stk cur P F) as [A Q]. split; [exact A|lia]. }
  destruct (r =? cTermsOpen)%Z.
  { injection FI as <- <- <-. cbn [app parse] in H. eapply CUT; [exact G|exact B1| | | |exact H]; [constructor|constructor; [split; [constructor|exact P]|exact F]|]. cbn [held]. change (tot []) with 0. lia. }
  destruct (_ && (0 <? level)).
  { injection FI as <- <- <-. cbn [app parse] in H. destruct stk as [|[al up] stk]; [discriminate|]. inversion F as [|e l [Fa Fu] Fs]; subst. cbn [fst snd] in *.
    eapply CUT; [exact G|exact B1| | | |exact H]; [constructor| |].
    - constructor; [split; [constructor; [split; [exact I|apply hv_pattern, Forall_rev, P]|exact Fa]|exact Fu]|exact Fs].
    - cbn [held]. rewrite tot_cons, wt_pattern, tot_rev. change (tot []) with 0. lia. }
  destruct (_ && (0 <? level)).
  { injection FI as <- <- <-. cbn [app parse] in H. destruct stk as [|[al up] stk]; [discriminate|]. inversion F as [|e l [Fa Fu] Fs]; subst. cbn [fst snd] in *.
    destruct (closed_group cur al P Fa) as [W [W6 Hg]]. eapply CUT; [exact G|exact B1| |exact Fs| |exact H]; [constructor; [auto|exact Fu]|]. rewrite held_cons, W. cbn [held]. lia. }
  destruct (r =? cRangeOpen)%Z.
  { destruct (fetchRange s1) as [[t0 s2]|] eqn:FR; [|discriminate]. injection FI as <- <- <-. cbn [app] in H.
    destruct (parse_class t0 (Lx level s2) cur stk s1 s2 B1 FR) as [B2 [L2 [E|[x [[C1 [C2 C3]] E]]]]]; rewrite E in H; [discriminate|].
    eapply CUT; [exact G|exact B2| |exact F| |exact H]; [constructor; [auto|exact P]|]. rewrite held_cons. pose proof (read_nonzero _ _ _ R NZ). lia. }
  destruct (r =? cSingle)%Z. { injection FI as <- <- <-. cbn [app parse] in H. eapply (LF NSingle); [cbn; lia|cbn; lia|exact I|exact G|exact B1|exact H]. }
  destruct (r =? cAny)%Z.
  { destruct (read s1) as [[r2 s2]|] eqn:R2; [|discriminate]. pose proof (read_bytes _ _ _ B1 R2) as B2. destruct (_ =? _)%Z; injection FI as <- <- <-; cbn [app parse] in H.
    - eapply (LF NSuper); [cbn; lia|cbn; lia|exact I|exact G|exact B2|exact H].
    - eapply (LF NAny); [cbn; lia|cbn; lia|exact I|exact G|exact B1|exact H]. }
  exact (TX _ FI).
Qed.
End Weight.
Theorem globs_size p seps m : bytes p -> Globs p seps m -> size m <= (7 + 4 * length seps) * length p + 1.
Proof.
  intros B [t [fuel [E C]]]. unfold Parse, Lex in E. change (lex (S (length p)) 0 p) with (Lx 0 p) in E.
  destruct (parse_held (length seps) (S (length p)) 0 p [] [] t ltac:(lia) B ltac:(constructor) ltac:(constructor) E) as [HV W].
  pose proof (compile_size (length seps) seps eq_refl fuel t m HV C) as Q. cbn [held] in W. change (tot (length seps) []) with 0 in W. lia.
Qed.
Lemma max_le (f g : Matcher -> nat) ms : (forall m, In m ms -> f m <= g m) -> list_max (map f ms) <= list_sum (map g ms).
Proof.
  induction ms as [|m ms IH]; intros H; [cbn; lia|]. cbn [map]. change (list_max (f m :: map f ms)) with (Nat.max (f m) (list_max (map f ms))). change (list_sum (g m :: map g ms)) with (g m + list_sum (map g ms)).
  pose proof (H m (or_introl eq_refl)). specialize (IH (fun x I => H x (or_intror I))). lia.
Qed.
Lemma size_in m ms : In m ms -> size m <= list_sum (map size ms).
Proof. induction ms as [|x ms IH]; [intros []|]. cbn [map]. change (list_sum (size x :: map size ms)) with (size x + list_sum (map size ms)). intros [->|I]; [lia|]. specialize (IH I). lia. Qed.
Theorem depth_size m : depth m <= size m.
Proof.
  assert (G : forall k m, size m <= k -> depth m <= size m); [|exact (G _ m (Nat.le_refl _))].
  clear m. induction k as [|k IH]; intros m L; [pose proof (size_pos m); lia|].
  assert (ML : forall ms, size (MAnyOf ms) <= S k -> S (list_max (map depth ms)) <= size (MAnyOf ms)).
  { intros ms Q. cbn [size] in *. apply le_n_S, max_le. intros x I. apply IH. pose proof (size_in x ms I). lia. }
  destruct m; try (cbn [depth size]; lia); try exact (ML _ L). rewrite size_btree in *. cbn [depth].
  assert (O : forall o, osize o <= k -> match o with Some x => depth x | None => 0 end <= osize o) by (intros [x|] Q; cbn [osize] in *; [apply IH, Q|lia]).
  pose proof (IH m ltac:(lia)). pose proof (O left ltac:(lia)). pose proof (O right ltac:(lia)). lia.
Qed.
