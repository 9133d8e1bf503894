(** * Beginnings and ends that alternatives share (proofs for C46_nested). *)
From Coq Require Import String.
From Coq Require Import ZArith Arith List Bool Lia.
From Verif Require Import Utf8 GoStr GlobLex GlobMatch GlobCompile GlobSpec GlobFragment GlobFactor GlobSem GlobGlue GlobLeaf GlobSeq GlobAlt GlobNestSpec.
Import ListNotations.
Open Scope nat_scope.

(** The inner loop of commonChildren breaks on both sides if some alternative differs on each. *)
Lemma inner_both tl tr i j n : forall others bl br,
  bl || existsb (fun o => negb (node_eqb tl (nth i (children o) NNothing))) others = true ->
  br || existsb (fun o => negb (node_eqb tr (nth (j + length (children o) - n) (children o) NNothing))) others = true ->
  common_inner others tl tr i j n bl br = (true, true).
Proof.
  induction others as [|o others IH]; intros bl br A B; cbn [common_inner existsb] in *; [rewrite orb_false_r in A, B; rewrite A, B; reflexivity|].
  destruct (bl && br) eqn:BB; [apply andb_true_iff in BB; destruct BB as [-> ->]; reflexivity|]. apply IH.
  - rewrite <- orb_assoc. exact A.
  - set (x := negb _ && (j <=? i)). destruct br; [reflexivity|]. cbn [orb] in *. destruct x; [reflexivity|]. cbn [orb]. exact B.
Qed.
Lemma diff_some {X} (f : X -> Node) t others : (exists o, In o others /\ f o <> t) -> existsb (fun o => negb (node_eqb t (f o))) others = true.
Proof.
  intros [o [I N]]. apply existsb_exists. exists o. split; [exact I|]. apply negb_true_iff, not_true_iff_false. rewrite node_eqb_iff. congruence.
Qed.
Lemma diff_none {X} (f : X -> Node) t others : (forall o, In o others -> f o = t) -> existsb (fun o => negb (node_eqb t (f o))) others = false.
Proof.
  intros H. apply not_true_iff_false. intros E. apply existsb_exists in E. destruct E as [o [I N]]. rewrite (H o I), (proj2 (node_eqb_iff t t) eq_refl) in N. discriminate.
Qed.
Section Common.
  Variables (pre post r0 : list Node) (rs : list (list Node)).
  Let p := length pre.
  Let q := length post.
  Let tree := pre ++ r0 ++ post.
  Let others := map (fun r => NPattern (pre ++ r ++ post)) rs.
  Hypothesis N0 : r0 <> [].
  Hypothesis NE : forall r, In r rs -> r <> [].
  Hypothesis SH : forall r, In r rs -> length r0 <= length r.
  Hypothesis HD : exists r, In r rs /\ hd_error r <> hd_error r0.
  Hypothesis LS : exists r, In r rs /\ hd_error (rev r) <> hd_error (rev r0).
  Let n := length tree.
  Lemma common_n : n = p + length r0 + q.
  Proof. unfold n, tree, p, q. rewrite !app_length. lia. Qed.
  Lemma common_r0 : 1 <= length r0.
  Proof. destruct r0; [contradiction N0; reflexivity|cbn; lia]. Qed.
  Lemma left_in i : i < p -> forall r, nth i (pre ++ r ++ post) NNothing = nth i pre NNothing.
  Proof. intros H r. apply app_nth1. exact H. Qed.
  Lemma left_at r : r <> [] -> nth p (pre ++ r ++ post) NNothing = hd NNothing r.
  Proof. intros H. unfold p. rewrite app_nth2, Nat.sub_diag by lia. destruct r; [contradiction H; reflexivity|reflexivity]. Qed.
  Lemma right_in i r : i < q -> length r0 <= length r -> nth (n - 1 - i + length (pre ++ r ++ post) - n) (pre ++ r ++ post) NNothing = nth (q - 1 - i) post NNothing.
  Proof.
    intros H L. pose proof common_n as En. pose proof common_r0. rewrite !app_length. fold p q. rewrite app_nth2 by (fold p; lia). rewrite app_nth2 by (fold p; lia). f_equal. fold p. lia.
  Qed.
  Lemma right_at r : r <> [] -> length r0 <= length r -> nth (n - 1 - q + length (pre ++ r ++ post) - n) (pre ++ r ++ post) NNothing = last r NNothing.
  Proof.
    intros H L. pose proof common_n as En. pose proof common_r0. rewrite !app_length. fold p q. rewrite app_nth2 by (fold p; lia).
    destruct r as [|x r _] using rev_ind; [contradiction H; reflexivity|]. rewrite last_last. rewrite app_length in *. cbn [length] in *. rewrite <- app_assoc. rewrite app_nth2 by (fold p; lia).
    match goal with |- nth ?k _ _ = _ => replace k with 0 by (fold p; lia) end. reflexivity.
  Qed.
  Lemma tree_right i : i < n -> nth (n - 1 - i) tree NNothing = nth (n - 1 - i + length tree - n) tree NNothing.
  Proof. intros H. f_equal. fold n. lia. Qed.
  Lemma hd_of r : r <> [] -> hd_error r = Some (hd NNothing r).
  Proof. destruct r; [intros H; contradiction H; reflexivity|reflexivity]. Qed.
  Lemma last_of r : r <> [] -> hd_error (rev r) = Some (last r NNothing).
  Proof. destruct r as [|x r _] using rev_ind; [intros H; contradiction H; reflexivity|]. rewrite rev_unit, last_last. reflexivity. Qed.
  Definition lastn' (k : nat) : list Node := skipn (q - k) post.
  Lemma round i : i < n -> i <= p \/ i <= q ->
    common_inner others (nth i tree NNothing) (nth (n - 1 - i) tree NNothing) i (n - 1 - i) n (p <? i) (q <? i) = (p <? S i, q <? S i).
  Proof.
    intros Hi PQ. pose proof common_n as En. pose proof common_r0 as R0.
    assert (DL : i <= p -> existsb (fun o => negb (node_eqb (nth i tree NNothing) (nth i (children o) NNothing))) others = (p <? S i)).
    { intros H. destruct (Nat.ltb_spec p (S i)) as [A|A].
      - assert (i = p) as -> by lia. apply diff_some. destruct HD as [r [Ir Dr]]. exists (NPattern (pre ++ r ++ post)). split; [apply (in_map (fun r => NPattern (pre ++ r ++ post))), Ir|].
        cbn [children]. rewrite (left_at r (NE r Ir)). unfold tree. rewrite (left_at r0 N0). intros E. apply Dr. rewrite (hd_of r (NE r Ir)), (hd_of r0 N0), E. reflexivity.
      - apply diff_none. intros o Io. apply in_map_iff in Io. destruct Io as [r [<- Ir]]. cbn [children]. unfold tree. rewrite !left_in by lia. reflexivity. }
    assert (DR : i <= q -> existsb (fun o => negb (node_eqb (nth (n - 1 - i) tree NNothing) (nth (n - 1 - i + length (children o) - n) (children o) NNothing))) others = (q <? S i)).
    { intros H. rewrite (tree_right i Hi). destruct (Nat.ltb_spec q (S i)) as [A|A].
      - assert (i = q) as -> by lia. apply diff_some. destruct LS as [r [Ir Dr]]. exists (NPattern (pre ++ r ++ post)). split; [apply (in_map (fun r => NPattern (pre ++ r ++ post))), Ir|].
        cbn [children]. rewrite (right_at r (NE r Ir) (SH r Ir)). unfold tree. rewrite (right_at r0 N0 (le_n _)). intros E. apply Dr. rewrite (last_of r (NE r Ir)), (last_of r0 N0), E. reflexivity.
      - apply diff_none. intros o Io. apply in_map_iff in Io. destruct Io as [r [<- Ir]]. cbn [children]. unfold tree. rewrite (right_in i r ltac:(lia) (SH r Ir)), (right_in i r0 ltac:(lia) (le_n _)). reflexivity. }
    destruct (Nat.le_gt_cases i p) as [A|A], (Nat.le_gt_cases i q) as [B|B]; [| | |exfalso; lia].
    - rewrite (proj2 (Nat.ltb_ge p i)), (proj2 (Nat.ltb_ge q i)) by lia. specialize (DL A). specialize (DR B).
      destruct (Nat.lt_ge_cases i (n - 1 - i)) as [C|C]; [rewrite inner_formula by (left; exact C); cbn [orb]; rewrite DL, DR; reflexivity|].
      assert (i = p /\ i = q) as [E1 E2] by lia. rewrite (proj2 (Nat.ltb_lt p (S i))) in * by lia. rewrite (proj2 (Nat.ltb_lt q (S i))) in * by lia. apply inner_both; cbn [orb]; [exact DL|exact DR].
    - rewrite (proj2 (Nat.ltb_ge p i)) by lia. rewrite (proj2 (Nat.ltb_lt q i)) by lia. rewrite inner_right. cbn [orb]. rewrite (DL A), (proj2 (Nat.ltb_lt q (S i))) by lia. reflexivity.
    - rewrite (proj2 (Nat.ltb_lt p i)) by lia. rewrite (proj2 (Nat.ltb_ge q i)) by lia. rewrite inner_formula by (right; reflexivity). cbn [orb]. rewrite (DR B), (proj2 (Nat.ltb_lt p (S i))) by lia. reflexivity.
  Qed.
  Lemma firstn_step i : i < p -> firstn i pre ++ [nth i tree NNothing] = firstn (S i) pre.
  Proof.
    intros H. unfold tree. rewrite left_in by exact H. clear - H. subst p. revert i H. induction pre as [|x l IH]; intros i H; [cbn in H; lia|]. destruct i as [|i]; [reflexivity|]. cbn [firstn nth app]. f_equal. apply IH. cbn in H. lia.
  Qed.
  Lemma skipn_step i : i < q -> nth (n - 1 - i) tree NNothing :: skipn (q - i) post = skipn (q - S i) post.
  Proof.
    intros H. pose proof common_n as En. pose proof common_r0 as R0. rewrite tree_right by lia. unfold tree. rewrite (right_in i r0 H (le_n _)). replace (q - 1 - i) with (q - S i) by lia.
    assert (K : q - S i < length post) by (fold q; lia). replace (q - i) with (S (q - S i)) by lia. revert K. generalize (q - S i). clear. induction post as [|x l IH]; intros k K; [cbn in K; lia|].
    destruct k as [|k]; [reflexivity|]. cbn [nth skipn]. apply IH. cbn in K. lia.
  Qed.
  Lemma common_from : forall fuel i, n <= i + fuel -> i <= n -> i <= S (max p q) ->
    common_outer fuel others tree i (p <? i) (q <? i) (min i p + min i q) (firstn i pre) (skipn (q - i) post) = (pre, post).
  Proof.
    pose proof common_n as En. pose proof common_r0 as R0.
    assert (FIN : forall i, p <= i -> q <= i -> (firstn i pre, skipn (q - i) post) = (pre, post)) by (intros i A B; f_equal; [apply firstn_all2; fold p; lia|replace (q - i) with 0 by lia; reflexivity]).
    induction fuel as [|fuel IH]; intros i Hf Hn Hm; [cbn [common_outer]; apply FIN; lia|]. cbn [common_outer]. fold n.
    destruct (Nat.le_gt_cases i (max p q)) as [A|A].
    - assert (T1 : (min i p + min i q <? n) = true) by (apply Nat.ltb_lt; lia). rewrite T1. cbn [andb].
      destruct (Nat.ltb_spec i n) as [T2|T2]; [|apply FIN; lia].
      assert (T3 : negb ((p <? i) && (q <? i)) = true) by (destruct (Nat.ltb_spec p i), (Nat.ltb_spec q i); try reflexivity; lia). rewrite T3. cbn [andb].
      rewrite (round i T2) by lia.
      destruct (Nat.ltb_spec p (S i)) as [C|C]; destruct (Nat.ltb_spec q (S i)) as [D|D].
      + specialize (IH (S i) ltac:(lia) ltac:(lia) ltac:(lia)). rewrite (proj2 (Nat.ltb_lt p (S i))), (proj2 (Nat.ltb_lt q (S i))) in IH by lia.
        replace (min (S i) p + min (S i) q) with (min i p + min i q) in IH by lia. rewrite (firstn_all2 (n := S i)) in IH by (fold p; lia). rewrite (firstn_all2 (n := i)) by (fold p; lia). replace (q - S i) with (q - i) in IH by lia. exact IH.
      + specialize (IH (S i) ltac:(lia) ltac:(lia) ltac:(lia)). rewrite (proj2 (Nat.ltb_lt p (S i))), (proj2 (Nat.ltb_ge q (S i))) in IH by lia.
        replace (min (S i) p + min (S i) q) with (S (min i p + min i q)) in IH by lia. rewrite (firstn_all2 (n := S i)) in IH by (fold p; lia). rewrite (firstn_all2 (n := i)) by (fold p; lia). rewrite (skipn_step i) by lia. exact IH.
      + specialize (IH (S i) ltac:(lia) ltac:(lia) ltac:(lia)). rewrite (proj2 (Nat.ltb_ge p (S i))), (proj2 (Nat.ltb_lt q (S i))) in IH by lia.
        replace (min (S i) p + min (S i) q) with (S (min i p + min i q)) in IH by lia. rewrite (firstn_step i) by lia. replace (q - S i) with (q - i) in IH by lia. exact IH.
      + specialize (IH (S i) ltac:(lia) ltac:(lia) ltac:(lia)). rewrite (proj2 (Nat.ltb_ge p (S i))), (proj2 (Nat.ltb_ge q (S i))) in IH by lia.
        replace (min (S i) p + min (S i) q) with (S (S (min i p + min i q))) in IH by lia. rewrite (firstn_step i) by lia. rewrite (skipn_step i) by lia. exact IH.
    - rewrite (proj2 (Nat.ltb_lt p i)), (proj2 (Nat.ltb_lt q i)) by lia. cbn [andb negb]. rewrite andb_false_r. apply FIN; lia.
  Qed.
End Common.
Lemma not_all_same {X} (f : X -> option Node) : forall l x, In x l -> (forall n, ~ (forall a, In a l -> f a = Some n)) -> f x <> None -> exists y, In y l /\ f y <> f x.
Proof.
  intros l x Ix H Nx. destruct (f x) as [n|] eqn:E; [|contradiction Nx; reflexivity]. specialize (H n).
  assert (D : forall l, (exists y, In y l /\ f y <> Some n) \/ forall a, In a l -> f a = Some n).
  { clear. induction l as [|a l IH]; [right; intros a []|]. destruct IH as [[y [I N]]|IH]; [left; exists y; split; [right; exact I|exact N]|].
    assert (K : f a = Some n \/ f a <> Some n). { destruct (f a) as [m|]; [|right; discriminate]. destruct (node_eqb m n) eqn:E; [left; f_equal; apply node_eqb_iff, E|right; intros Q; injection Q as ->; rewrite (proj2 (node_eqb_iff n n) eq_refl) in E; discriminate]. }
    destruct K as [K|K]; [right; intros b [<-|I]; [exact K|apply IH, I]|left; exists a; split; [left; reflexivity|exact K]]. }
  destruct (D l) as [Q|Q]; [exact Q|contradiction].
Qed.
Lemma common_shared pre post rests : unshared rests -> ~ In [] rests -> commonChildren (map (fun r => NPattern (pre ++ r ++ post)) rests) = (pre, post).
Proof.
  intros [U1 U2] NN. set (g := fun r => NPattern (pre ++ r ++ post)).
  assert (L2 : 2 <= length rests).
  { destruct rests as [|a [|b t]]; [exfalso; apply (U1 NNothing); intros a []| |cbn; lia]. exfalso. destruct a as [|x a]; [apply NN; left; reflexivity|]. apply (U1 x). intros a' [<-|[]]. reflexivity. }
  unfold commonChildren. rewrite map_length. destruct (Nat.leb_spec (length rests) 1) as [L|_]; [lia|].
  pose proof (least_spec (map g rests) 0 None) as LS. destruct (least (map g rests) 0 None) as [k|]; [|destruct LS as [_ LS]; destruct rests; [cbn in L2; lia|discriminate LS]].
  destruct LS as [[m [E _]]|[j [nd [-> [NE [F _]]]]]]; [discriminate|]. cbn [plus]. rewrite (nth_error_nth _ _ _ NE).
  destruct (nth_error_split _ _ NE) as [a' [b' [EQ La]]]. apply map_eq_app in EQ. destruct EQ as [a [b0 [-> [<- EB]]]]. destruct b0 as [|r0 b]; [discriminate|]. cbn [map] in EB. injection EB as <- <-. subst j.
  rewrite map_app. cbn [map]. rewrite firstn_app, firstn_all, Nat.sub_diag, firstn_O, app_nil_r. rewrite skipn_app. replace (skipn (S (length (map g a))) (map g a)) with (@nil Node) by (symmetry; apply skipn_all2; lia).
  replace (S (length (map g a)) - length (map g a)) with 1 by lia. cbn [skipn app]. rewrite <- map_app. cbn [g children].
  assert (I0 : In r0 (a ++ r0 :: b)) by (apply in_or_app; right; left; reflexivity).
  assert (N0 : r0 <> []) by (intros ->; apply NN, I0).
  assert (IO : forall r, In r (a ++ b) -> In r (a ++ r0 :: b)) by (intros r I; apply in_app_or in I; apply in_or_app; destruct I; [left|right; right]; assumption).
  assert (D1 : forall (f : list Node -> option Node), f r0 <> None -> (forall n, ~ (forall a', In a' (a ++ r0 :: b) -> f a' = Some n)) -> exists r, In r (a ++ b) /\ f r <> f r0).
  { intros f Nf H. destruct (not_all_same f _ r0 I0 H Nf) as [y [Iy Ny]]. exists y. split; [|exact Ny]. apply in_app_or in Iy. apply in_or_app. destruct Iy as [Iy|[<-|Iy]]; [left; exact Iy|contradiction Ny; reflexivity|right; exact Iy]. }
  pose proof (common_from pre post r0 (a ++ b)) as CF. specialize (CF N0).
  specialize (CF ltac:(intros r I ->; apply NN, IO, I)).
  specialize (CF ltac:(intros r I; rewrite Forall_forall in F; specialize (F (g r) ltac:(apply in_map, IO, I)); cbn [g children] in F; rewrite !app_length in F; lia)).
  specialize (CF (D1 (@hd_error Node) ltac:(destruct r0; [contradiction N0; reflexivity|discriminate]) U1)).
  specialize (CF (D1 (fun r => hd_error (rev r)) ltac:(cbv beta; rewrite (last_of r0 N0); discriminate) U2)).
  specialize (CF (S (length (pre ++ r0 ++ post))) 0 ltac:(lia) ltac:(lia) ltac:(lia)). cbn [min Nat.add firstn] in CF. rewrite Nat.sub_0_r, skipn_all in CF. exact CF.
Qed.
Lemma rest_shared pre post r : r <> [] -> rest_node (length pre) (length post) (NPattern (pre ++ r ++ post)) = NPattern r.
Proof.
  intros N. unfold rest_node. cbn [children]. rewrite !app_length. rewrite skipn_app, skipn_all, Nat.sub_diag. cbn [skipn app].
  replace (length pre + (length r + length post) - length post - length pre) with (length r) by lia. rewrite firstn_app, firstn_all, Nat.sub_diag, firstn_O, app_nil_r. destruct r; [contradiction N; reflexivity|reflexivity].
Qed.
Lemma fold_shared pre post : forall rests acc, ~ In [] rests -> NoDup (acc ++ rests) ->
  fold_left (fun a c => appendIfUnique a (rest_node (length pre) (length post) c)) (map (fun r => NPattern (pre ++ r ++ post)) rests) (map NPattern acc) = map NPattern (acc ++ rests).
Proof.
  induction rests as [|r rests IH]; intros acc NN ND; cbn [map fold_left]; [rewrite app_nil_r; reflexivity|].
  rewrite rest_shared by (intros ->; apply NN; left; reflexivity). unfold appendIfUnique. destruct (existsb (fun n => node_eqb n (NPattern r)) (map NPattern acc)) eqn:X.
  - exfalso. apply existsb_exists in X. destruct X as [m [I E]]. apply node_eqb_iff in E. subst m. apply in_map_iff in I. destruct I as [r' [E I]]. injection E as ->.
    apply NoDup_remove_2 in ND. apply ND, in_or_app. left. exact I.
  - change [NPattern r] with (map NPattern [r]). rewrite <- map_app. replace (acc ++ r :: rests) with ((acc ++ [r]) ++ rests) in * by (rewrite <- app_assoc; reflexivity). apply IH; [intros I; apply NN; right; exact I|exact ND].
Qed.
(** What minimizeTreeAnyOf makes of alternatives that share a beginning or an end. *)
Lemma minimize_shared pre post rests : unshared rests -> ~ In [] rests -> NoDup rests -> pre ++ post <> [] ->
  minimizeTreeAnyOf (map (fun r => NPattern (pre ++ r ++ post)) rests) = Some (NPattern (wrap pre ++ [group rests] ++ wrap post)).
Proof.
  intros U NN ND NP. unfold minimizeTreeAnyOf.
  assert (P : forallb is_pattern (map (fun r => NPattern (pre ++ r ++ post)) rests) = true) by (apply forallb_forall; intros c I; apply in_map_iff in I; destruct I as [l [<- _]]; reflexivity). rewrite P. cbn [negb].
  rewrite (common_shared pre post rests U NN). assert (Z0 : (length pre =? 0) && (length post =? 0) = false) by (destruct pre; [destruct post; [contradiction NP; reflexivity|reflexivity]|reflexivity]). rewrite Z0.
  pose proof (fold_shared pre post rests [] NN ND) as FS. cbn [map app] in FS. rewrite FS. do 3 f_equal.
  destruct U as [U _]. destruct rests as [|a [|b t]]; [exfalso; apply (U NNothing); intros a []| |reflexivity]. exfalso. destruct a as [|x a]; [apply NN; left; reflexivity|]. apply (U x). intros a' [<-|[]]. reflexivity.
Qed.

(** ** Text and a star: the beginnings it stands for *)
Lemma compile_text_star t y : (y = MSuper \/ exists c e, y = MAny (c :: e)) -> option_map optimizeMatcher (compileMatchers (minimizeMatchers [MText t; y])) = Some (match y with MAny e => MPrefixAny t e | _ => MPrefix t end).
Proof.
  intros Y. assert (LY : Len y = (-1)%Z) by (destruct Y as [->|[c [e ->]]]; reflexivity).
  assert (G2 : glueMatchers [MText t; y] = None). { unfold glueMatchers, glueMatchersAsEvery, glueMatchersAsRow. cbn [length Nat.leb glue_kind existsb]. rewrite LY. destruct (Len (MText t) =? -1)%Z; reflexivity. }
  assert (G1 : forall m, glueMatchers [m] = None) by reflexivity.
  assert (M : minimizeMatchers [MText t; y] = [MText t; y]).
  { unfold minimizeMatchers. cbn [length minimize_f]. change (slices 2) with [(0, 2); (0, 1); (1, 2)]. cbn [fold_left]. unfold consider. cbn [firstn skipn Nat.sub]. rewrite G2, !G1. reflexivity. }
  rewrite M. unfold compileMatchers. cbn [length compileMatchers_f]. rewrite G2. cbn [longest]. assert (LT : (0 <= Len (MText t))%Z) by (unfold Len; cbn [sem sLen]; lia).
  assert (T1 : negb (Len (MText t) =? -1)%Z && (-1 <=? Len (MText t))%Z = true) by (destruct (Z.eqb_spec (Len (MText t)) (-1)); [lia|]; apply Z.leb_le; lia). rewrite T1, LY. cbn [negb andb Z.eqb Pos.eqb].
  cbn [firstn skipn compileMatchers_f option_map]. unfold NewBTree. destruct Y as [->|[c [e ->]]]; cbn; reflexivity.
Qed.
Lemma skipn_add' {A} (l : list A) a b : skipn a (skipn b l) = skipn (b + a) l.
Proof. revert l. induction b as [|b IH]; intros l; [reflexivity|]. destruct l; [rewrite !skipn_nil; reflexivity|apply IH]. Qed.
Lemma prefix_segs (t w : str) : ascii w -> length t :: map (fun ir => length t + fst ir + RuneLen (snd ir)) (range_str w) = seq (length t) (S (length w)).
Proof. intros As. cbn [seq]. f_equal. apply range_ends, As. Qed.
Section Pref.
Context {md : Mode}.
Lemma pref_after (t : str) (L : lang) (cut : str -> nat) m : ~ is_bytes -> (forall s, ascii s -> cut s <= length s /\ forall j, j <= length s -> (L (firstn j s) <-> j <= cut s)) ->
  (forall s, sIndex (sem m) s = Some (match index_of s t with None => None | Some i => Some (i, length t :: map (fun ir => length t + fst ir + RuneLen (snd ir)) (range_str (firstn (cut (skipn (i + length t) s)) (skipn (i + length t) s)))) end)) ->
  pref (fun s => exists u, s = t ++ u /\ L u) (sem m).
Proof.
  intros NB CU IX. split; [|exact (no_loose _ NB)]. intros s Ds. pose proof (dom_ascii s NB Ds) as As. rewrite IX. pose proof (index_of_spec s t) as H.
  assert (B : forall j, (exists u, firstn j s = t ++ u /\ L u) -> j <= length s -> sub s 0 (length t) = t /\ length t <= j).
  { intros j [u [E _]] Lj. assert (LJ := f_equal (@length _) E). rewrite firstn_length, app_length in LJ. split; [|lia]. unfold sub. cbn [skipn]. transitivity (firstn (length t) (firstn j s)).
    - rewrite firstn_firstn. f_equal. lia.
    - rewrite E, firstn_app, firstn_all, Nat.sub_diag, firstn_O, app_nil_r. reflexivity. }
  destruct (index_of s t) as [i|].
  - destruct H as [H1 [H2 H3]]. split; [lia|]. split.
    + intros -> j. cbn [plus]. set (r := skipn (length t) s). assert (Ar : ascii r) by (unfold r; auto with asc). destruct (CU r Ar) as [C1 C2].
      assert (Lr : length r = length s - length t) by (unfold r; apply skipn_length).
      rewrite prefix_segs by auto with asc. rewrite in_seq, firstn_length.
      assert (ES : s = t ++ r) by (unfold sub in H2; cbn [skipn] in H2; rewrite <- H2 at 1; unfold r; symmetry; apply firstn_skipn).
      split.
      * intros [J1 J2]. split; [lia|]. exists (firstn (j - length t) r). split; [rewrite ES at 1; rewrite firstn_app, (firstn_all2 (n := j)) by lia; reflexivity|]. apply C2; lia.
      * intros J1 X _. destruct (B j X J1) as [_ J2]. destruct X as [u [E Lu]]. assert (u = firstn (j - length t) r) as ->.
        { rewrite ES in E at 1. rewrite firstn_app, (firstn_all2 (n := j)) in E by lia. apply app_inv_head in E. symmetry. exact E. }
        apply C2 in Lu; lia.
    + intros P j Lj X. destruct (B j X Lj) as [X1 _]. apply (H3 0 P X1).
  - intros j Lj X. destruct (B j X Lj) as [X1 _]. apply (H 0 ltac:(lia) X1).
Qed.
Lemma pref_prefix t : ~ is_bytes -> pref (fun s => exists u, s = t ++ u /\ True) (sem (MPrefix t)).
Proof.
  intros NB. apply (pref_after t (fun _ => True) (fun s => length s) _ NB).
  - intros s _. split; [lia|]. intros j H. tauto.
  - intros s. cbn [sem sIndex]. f_equal. destruct (index_of s t) as [i|]; [|reflexivity]. rewrite firstn_all. reflexivity.
Qed.
Lemma pref_prefix_any t e : ~ is_bytes -> ascii e -> length e <= 1 -> pref (fun s => exists u, s = t ++ u /\ anyL e u) (sem (MPrefixAny t e)).
Proof.
  intros NB Ae Le. apply (pref_after t (anyL e) (fun s => match IndexAnyRunes s e with Some k => k | None => length s end) _ NB).
  - intros s As. destruct e as [|c [|? ?]]; [| |cbn in Le; lia].
    + cbn [IndexAnyRunes]. split; [lia|]. intros j H. split; [auto|]. intros _. apply Forall_forall. intros d _ [].
    + inversion Ae; subst. rewrite any_one by assumption. pose proof (index_char s c) as H. destruct (index_of s [c]) as [i|].
      * destruct H as [L [E F]]. split; [lia|]. apply (any_firstn s c i E F).
      * split; [lia|]. intros j Lj. split; [auto|]. intros _. apply Forall_forall. intros d I [<-|[]]. apply H. rewrite <- (firstn_skipn j s). apply in_or_app. left. exact I.
  - intros s. cbn [sem sIndex]. f_equal. destruct (index_of s t) as [i|]; [|reflexivity]. cbv zeta. destruct (IndexAnyRunes (skipn (i + length t) s) e) as [k|]; [reflexivity|]. rewrite firstn_all. reflexivity.
Qed.
End Pref.
