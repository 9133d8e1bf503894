(** * Proofs about Index (C64): alternatives, suffixes, intersections and rows. *)
From Coq Require Import String.
From Coq Require Import ZArith Arith List Bool Lia Sorting.Sorted.
From Verif Require Import Utf8 GoStr GlobLex GlobMatch GlobSpec GlobSem GlobText GlobIndexSpec GlobIndex.
Import ListNotations.
#[local] Instance ascii_mode : Mode := false.
Open Scope nat_scope.

(** ** Alternatives *)
Definition exactR (r : IR) (L : list Z -> Prop) (cs : list Z) : Prop :=
  match r with
  | Some (i, segs) => exists a rest, cs = a ++ rest /\ i = length (utf8 a)
      /\ segs <> [] /\ (forall l, In l segs <-> exists b c, rest = b ++ c /\ l = length (utf8 b) /\ L b) /\ StronglySorted lt segs
      /\ forall a' b' c', cs = a' ++ b' ++ c' -> L b' -> length a <= length a'
  | None => forall a b c, cs = a ++ b ++ c -> ~ L b
  end.
Lemma exactR_index m L cs : exact_index m L cs <-> exists r, Index m (utf8 cs) = Some r /\ exactR r L cs.
Proof.
  unfold exact_index. destruct (Index m (utf8 cs)) as [[[i segs]|]|]; split.
  - intros H. exists (Some (i, segs)). auto.
  - intros [r [E H]]. injection E as <-. exact H.
  - intros H. exists None. auto.
  - intros [r [E H]]. injection E as <-. exact H.
  - intros [].
  - intros [r [E _]]. discriminate.
Qed.
Lemma exactR_ext r (L L' : list Z -> Prop) cs : (forall b, L b <-> L' b) -> exactR r L cs -> exactR r L' cs.
Proof.
  intros H E. destruct r as [[i segs]|]; cbn in *.
  - destruct E as [a [rest [Ec [Ei [Ne [Hs [So F]]]]]]]. exists a, rest. split; [exact Ec|]. split; [exact Ei|]. split; [exact Ne|]. split; [|split; [exact So|]].
    + intros l. rewrite Hs. split; intros [b [c [Er [El HL]]]]; exists b, c; (split; [exact Er|]); (split; [exact El|]); apply H; exact HL.
    + intros a' b' c' E' HL. apply (F a' b' c' E'). apply H, HL.
  - intros a b c E' HL. apply (E a b c E'). apply H, HL.
Qed.
Lemma merge_eq x t y s : merge (x :: t) (y :: s) = if x =? y then x :: merge t s else if x <? y then x :: merge t (y :: s) else y :: merge (x :: t) s.
Proof. reflexivity. Qed.
Lemma merge_sorted : forall n t s, length t + length s <= n -> StronglySorted lt t -> StronglySorted lt s -> StronglySorted lt (merge t s).
Proof.
  induction n as [|n IH]; intros t s H St Ss.
  - destruct t, s; cbn in H; try lia. cbn. constructor.
  - destruct t as [|x t]; [destruct s; exact Ss|]. destruct s as [|y s]; [exact St|]. rewrite merge_eq. cbn [length] in H. inversion St as [|? ? St' Ft]; subst. inversion Ss as [|? ? Ss' Fs]; subst. rewrite Forall_forall in Ft, Fs.
    destruct (Nat.eqb_spec x y) as [->|N]; [|destruct (Nat.ltb_spec x y) as [Lxy|Lxy]]; constructor; try (apply IH; cbn [length]; (lia || assumption)); apply Forall_forall; intros z I; apply (proj1 (merge_in _ _ _ (le_n _) z)) in I; cbn [In] in I; destruct I as [I|I].
    + apply Ft, I. + apply Fs, I. + apply Ft, I. + destruct I as [<-|I]; [exact Lxy|]. specialize (Fs z I). lia. + destruct I as [<-|I]; [lia|]. specialize (Ft z I). lia. + apply Fs, I.
Qed.
Lemma merge_ne t s : t <> [] -> merge t s <> [].
Proof. destruct t as [|x t]; [contradiction|]. intros _ E. assert (I : In x (merge (x :: t) s)) by (apply (merge_in _ _ _ (le_n _)); left; left; reflexivity). rewrite E in I. destruct I. Qed.
Lemma utf8_le (a rest a' rest' : list Z) : a ++ rest = a' ++ rest' -> (length a <= length a' <-> length (utf8 a) <= length (utf8 a')).
Proof.
  intros E. split; intros L.
  - destruct (prefix_split _ _ _ _ E L) as [e [-> _]]. rewrite utf8_app, app_length. lia.
  - destruct (Nat.le_gt_cases (length a) (length a')) as [|G]; [assumption|]. exfalso. symmetry in E. destruct (prefix_split _ _ _ _ E ltac:(lia)) as [e [-> _]]. destruct e; [rewrite app_nil_r in G; lia|]. pose proof (utf8_longer a' (z :: e) ltac:(discriminate)). lia.
Qed.
Lemma utf8_eq (a rest a' rest' : list Z) : a ++ rest = a' ++ rest' -> length (utf8 a) = length (utf8 a') -> a = a'.
Proof.
  intros E L. pose proof (utf8_le _ _ _ _ E) as U1. pose proof (utf8_le _ _ _ _ (eq_sym E)) as U2. apply (app_inj_len a rest a' rest' E). lia.
Qed.
Lemma exactR_union i seg i0 seg0 U L cs : exactR (Some (i0, seg0)) U cs -> exactR (Some (i, seg)) L cs ->
  exactR (if i <? i0 then Some (i, seg) else if i0 <? i then Some (i0, seg0) else Some (i0, appendMerge seg0 seg)) (fun b => U b \/ L b) cs.
Proof.
  intros [a0 [r0 [E0 [-> [N0 [H0 [S0 F0]]]]]]] [a [r [E [-> [N [H [So F]]]]]]]. pose proof E as EE. rewrite E0 in EE. pose proof (utf8_le _ _ _ _ EE) as U1. symmetry in EE. pose proof (utf8_le _ _ _ _ EE) as U2.
  destruct (Nat.ltb_spec (length (utf8 a)) (length (utf8 a0))) as [L1|L1]; [|destruct (Nat.ltb_spec (length (utf8 a0)) (length (utf8 a))) as [L2|L2]]; cbn [exactR].
  - exists a, r. split; [exact E|]. split; [reflexivity|]. split; [exact N|]. split; [|split; [exact So|]].
    + intros l. rewrite H. split; intros [b [c [Er [El HL]]]]; exists b, c; (split; [exact Er|]); (split; [exact El|]); [right; exact HL|]. destruct HL as [HU|HL]; [|exact HL]. exfalso. subst r. pose proof (F0 a b c E HU). lia.
    + intros a' b' c' E' [HU|HL]; [|apply (F a' b' c' E' HL)]. pose proof (F0 a' b' c' E' HU). lia.
  - exists a0, r0. split; [exact E0|]. split; [reflexivity|]. split; [exact N0|]. split; [|split; [exact S0|]].
    + intros l. rewrite H0. split; intros [b [c [Er [El HL]]]]; exists b, c; (split; [exact Er|]); (split; [exact El|]); [left; exact HL|]. destruct HL as [HU|HL]; [exact HU|]. exfalso. subst r0. pose proof (F a0 b c E0 HL). lia.
    + intros a' b' c' E' [HU|HL]; [apply (F0 a' b' c' E' HU)|]. pose proof (F a' b' c' E' HL). lia.
  - assert (Ll : length a = length a0) by lia. destruct (prefix_split _ _ _ _ EE ltac:(lia)) as [e [Ea Er]]. assert (e = []) by (destruct e; [reflexivity|]; subst a0; rewrite app_length in Ll; cbn in Ll; lia). subst e. rewrite app_nil_r in Ea. subst a0. cbn [app] in Er. subst r0. clear EE U1 U2 L1 L2 Ll.
    exists a, r. split; [exact E|]. split; [reflexivity|]. split; [apply merge_ne, N0|]. split; [|split; [apply (merge_sorted _ _ _ (le_n _) S0 So)|]].
    + intros l. unfold appendMerge. rewrite (merge_in _ _ _ (le_n _) l), H, H0. split.
      * intros [[b [c [X [Y Z]]]]|[b [c [X [Y Z]]]]]; exists b, c; auto.
      * intros [b [c [X [Y [Z|Z]]]]]; [left|right]; exists b, c; auto.
    + intros a' b' c' E' [HU|HL]; [apply (F0 a' b' c' E' HU)|apply (F a' b' c' E' HL)].
Qed.
Lemma exactR_no_l r (U L : list Z -> Prop) cs : exactR None U cs -> exactR r L cs -> exactR r (fun b => U b \/ L b) cs.
Proof.
  intros HU. destruct r as [[i seg]|]; cbn [exactR].
  - intros [a [rest [E [-> [N [H [So F]]]]]]]. exists a, rest. split; [exact E|]. split; [reflexivity|]. split; [exact N|]. split; [|split; [exact So|]].
    + intros l. rewrite H. split; intros [b [c [Er [El HL]]]]; exists b, c; (split; [exact Er|]); (split; [exact El|]); [right; exact HL|]. destruct HL as [X|HL]; [|exact HL]. exfalso. subst rest. exact (HU a b c E X).
    + intros a' b' c' E' [X|HL]; [exfalso; exact (HU a' b' c' E' X)|apply (F a' b' c' E' HL)].
  - intros H a b c E [X|X]; [exact (HU a b c E X)|exact (H a b c E X)].
Qed.
Lemma exact_anyof cs ms (Ls : list (list Z -> Prop)) : Forall2 (fun m L => exact_index m L cs) ms Ls -> exact_index (MAnyOf ms) (fun b => exists L, In L Ls /\ L b) cs.
Proof.
  intros F. apply exactR_index. unfold Index. cbn [sem sIndex].
  assert (G : forall acc (U : list Z -> Prop), exactR acc U cs -> exists r, any_index (map sem ms) (utf8 cs) acc = Some r /\ exactR r (fun b => U b \/ exists L, In L Ls /\ L b) cs).
  { induction F as [|m L ms Ls Fm F IH]; intros acc U HU; cbn [map any_index].
    - exists acc. split; [reflexivity|]. revert HU. apply exactR_ext. intros b. split; [auto|]. intros [H|[L [[] _]]]. exact H.
    - apply exactR_index in Fm. destruct Fm as [r [Er Hr]]. unfold Index in Er. rewrite Er.
      assert (X : forall acc', exactR acc' (fun b => U b \/ L b) cs -> exists r, any_index (map sem ms) (utf8 cs) acc' = Some r /\ exactR r (fun b => U b \/ exists L', In L' (L :: Ls) /\ L' b) cs).
      { intros acc' H. destruct (IH _ _ H) as [r' [E' H']]. exists r'. split; [exact E'|]. revert H'. apply exactR_ext. intros b. split.
        - intros [[H1|H1]|[L' [I H1]]]; [auto|right; exists L; split; [left; reflexivity|exact H1]|right; exists L'; split; [right; exact I|exact H1]].
        - intros [H1|[L' [[<-|I] H1]]]; [auto|auto|right; exists L'; auto]. }
      destruct r as [[i seg]|].
      + destruct acc as [[i0 seg0]|].
        * pose proof (exactR_union _ _ _ _ _ _ _ HU Hr) as HX. destruct (i <? i0); [apply X, HX|]. destruct (i0 <? i); apply X, HX.
        * apply X. apply exactR_no_l; assumption.
      + apply X. apply (exactR_ext _ (fun b => L b \/ U b)); [intros b; tauto|]. apply exactR_no_l; assumption. }
  destruct (G None (fun _ => False)) as [r [Er Hr]]; [intros a b c _ []|]. exists r. split; [exact Er|]. revert Hr. apply exactR_ext. intros b. tauto.
Qed.
(** ** The last occurrence of a character *)
Lemma last_index_spec t : forall s i, match last_index s t i with
  | Some p => exists j, p = i + j /\ j + length t <= length s /\ sub s j (length t) = t /\ forall j', j < j' -> j' <= length s -> sub s j' (length t) <> t
  | None => forall j, j <= length s -> sub s j (length t) <> t end.
Proof.
  intros s. induction s as [|c s IH]; intros i; cbn [last_index].
  - destruct (HasPrefix [] t) eqn:P.
    + apply prefix_sub in P. exists 0. split; [lia|]. rewrite firstn_nil in P. subst t. split; [cbn; lia|]. split; [reflexivity|]. cbn [length]. intros; lia.
    + intros j L E. cbn in L. assert (j = 0) by lia. subst j. apply not_true_iff_false in P. apply P, prefix_sub. exact E.
  - specialize (IH (S i)). destruct (last_index s t (S i)) as [p|].
    + destruct IH as [j [-> [L [E F]]]]. exists (S j). split; [lia|]. split; [cbn; lia|]. split; [exact E|]. intros [|j'] H H2; [lia|]. cbn [length] in H2. apply (F j'); lia.
    + destruct (HasPrefix (c :: s) t) eqn:P.
      * apply prefix_sub in P. exists 0. split; [lia|]. split; [|split; [exact P|]]. { rewrite <- P at 1. rewrite firstn_length. lia. } intros [|j'] H H2; [lia|]. cbn [length] in H2. apply (IH j'). lia.
      * intros [|j] L; [intros E; apply not_true_iff_false in P; apply P, prefix_sub; exact E|]. cbn [length] in L. apply IH. lia.
Qed.
Lemma last_occ cs r : Forall valid_rune cs -> valid_rune r ->
  match last_index_of (utf8 cs) (utf8 [r]) with Some i => exists a b, cs = a ++ r :: b /\ i = length (utf8 a) /\ ~ In r b | None => ~ In r cs end.
Proof.
  intros Vc Vr. assert (Vt : Forall valid_rune [r]) by (constructor; [exact Vr|constructor]). unfold last_index_of. pose proof (last_index_spec (utf8 [r]) (utf8 cs) 0) as H. destruct (last_index _ _ _) as [i|].
  - destruct H as [j [-> [L [E F]]]]. cbn [Nat.add]. pose proof (split3 (utf8 cs) j (length (utf8 [r]))) as S3. rewrite E in S3. destruct (sync _ _ _ _ Vc Vt ltac:(discriminate) S3) as [a [b [Ec [Ea Eb]]]]. exists a, b. split; [exact Ec|]. split; [rewrite <- Ea, firstn_length; lia|].
    intros I. apply in_split in I. destruct I as [x [y ->]]. apply (F (length (utf8 (a ++ r :: x)))).
    + assert (length (utf8 a) = j) by (rewrite <- Ea, firstn_length; lia). pose proof (utf8_longer a (r :: x) ltac:(discriminate)). lia.
    + rewrite Ec. cbn [app]. rewrite app_comm_cons, app_assoc, (utf8_app (a ++ r :: x)), app_length. lia.
    + rewrite Ec. cbn [app]. rewrite app_comm_cons, app_assoc. change (r :: y) with ([r] ++ y). rewrite (utf8_app (a ++ r :: x)), (utf8_app [r]). apply sub_at.
  - intros I. apply in_split in I. destruct I as [x [y E]]. apply (H (length (utf8 x))); [rewrite E, utf8_app, app_length; lia|]. rewrite E. change (r :: y) with ([r] ++ y). rewrite !utf8_app. apply sub_at.
Qed.
Lemma app_firstn_utf8 a b : firstn (length (utf8 a)) (utf8 (a ++ b)) = utf8 a.
Proof. rewrite utf8_app, firstn_app, firstn_all, Nat.sub_diag, firstn_O, app_nil_r. reflexivity. Qed.
Lemma app_skipn_utf8 a b : skipn (length (utf8 a)) (utf8 (a ++ b)) = utf8 b.
Proof. rewrite utf8_app, skipn_app, skipn_all, Nat.sub_diag. reflexivity. Qed.
(** ** A suffix after characters that are not separators *)
Lemma shortest_suffix_any cs t e : Forall valid_rune cs -> Forall valid_rune t -> ascii e -> length e <= 1 -> shortest_index (MSuffixAny (utf8 t) e) (fun b => exists u, b = u ++ t /\ Forall (fun c => ~ In c e) u) cs.
Proof.
  intros Vc Vt Ae Le. pose proof (occ cs t Vc Vt) as H. unfold shortest_index, Index. cbn [sem sIndex]. destruct (index_of _ _) as [idx|].
  2: { intros a b c E [u [-> _]]. apply (H (a ++ u) c). rewrite E, <- !app_assoc. reflexivity. }
  destruct H as [a [b [Ec [-> F]]]]. assert (Va : Forall valid_rune a) by (rewrite Ec, Forall_app in Vc; tauto).
  assert (K : exists x y, a = x ++ y /\ Forall (fun c => ~ In c e) y /\ LastIndexAnyRunes (firstn (length (utf8 a)) (utf8 cs)) e = Some (match length (utf8 x) with 0 => None | S j => Some j end)
            /\ (x = [] \/ exists x' r, x = x' ++ [r] /\ In r e)).
  { rewrite Ec, app_firstn_utf8. destruct e as [|r [|]]; [exists [], a; cbn; repeat split; auto; apply Forall_forall; intros ? ? []| |cbn in Le; lia]. inversion Ae as [|? ? Ar _]; subst. cbn [LastIndexAnyRunes].
    assert (B : ((0 <=? r) && (r <? 128) = true)%Z) by (rewrite andb_true_iff, Z.leb_le, Z.ltb_lt; exact Ar). rewrite B. pose proof (last_occ a r Va (valid_ascii r Ar)) as LO. rewrite encode_ascii' in LO by exact Ar. destruct (last_index_of (utf8 a) [r]) as [i|].
    - destruct LO as [x [y [-> [-> N]]]]. exists (x ++ [r]), y. split; [rewrite <- app_assoc; reflexivity|]. split; [apply Forall_forall; intros c I [<-|[]]; contradiction|]. split.
      + rewrite utf8_app, encode_ascii', app_length by exact Ar. cbn [length]. rewrite Nat.add_1_r. reflexivity.
      + right. exists x, r. split; [reflexivity|left; reflexivity].
    - exists [], a. split; [reflexivity|]. split; [apply Forall_forall; intros c I [<-|[]]; contradiction|]. split; [reflexivity|left; reflexivity]. }
  destruct K as [x [y [Exy [Fy [EL Hx]]]]]. rewrite EL. assert (Ei : (match (match length (utf8 x) with 0 => None | S j => Some j end) with Some j => S j | None => 0 end) = length (utf8 x)) by (destruct (length (utf8 x)); reflexivity). cbv zeta. rewrite Ei.
  exists x, (y ++ t), b. split; [rewrite Ec, Exy, <- !app_assoc; reflexivity|]. split; [reflexivity|]. split; [rewrite Exy, !utf8_app, !app_length; f_equal; lia|]. split; [exists y; auto|]. split.
  - intros a' b' c' E' [u [-> Fu]]. destruct Hx as [->|[x' [r [-> Ir]]]]; [cbn; lia|]. destruct (Nat.le_gt_cases (length (x' ++ [r])) (length a')) as [|G]; [assumption|]. exfalso.
    assert (La : length a <= length (a' ++ u)) by (apply (F (a' ++ u) c'); rewrite E', <- !app_assoc; reflexivity). rewrite app_length in G. cbn [length] in G.
    assert (E2 : (x' ++ [r]) ++ (y ++ t ++ b) = a' ++ (u ++ t) ++ c') by (rewrite <- E', Ec, Exy, <- !app_assoc; reflexivity). rewrite <- app_assoc in E2. symmetry in E2.
    destruct (prefix_split _ _ _ _ E2 ltac:(lia)) as [z [-> E3]]. rewrite Exy, !app_length in La. cbn [length] in La.
    assert (E4 : (z ++ [r]) ++ y ++ t ++ b = u ++ t ++ c') by (rewrite <- !app_assoc in *; symmetry; exact E3). destruct (prefix_split _ _ _ _ E4 ltac:(rewrite !app_length; cbn [length]; lia)) as [w [-> _]].
    rewrite !Forall_app in Fu. destruct Fu as [[_ Fr] _]. inversion Fr; subst. contradiction.
  - intros b' c' E' [u [-> _]]. assert (length a <= length (x ++ u)) by (apply (F (x ++ u) c'); rewrite Ec, Exy, <- !app_assoc; f_equal; rewrite <- !app_assoc in E'; exact E'). rewrite Exy, !app_length in H. rewrite !app_length. lia.
Qed.
(** ** A prefix and a suffix of one character *)
Lemma suffix_ends_spec r : valid_rune r -> forall cs, Forall valid_rune cs -> forall fuel, length cs < fuel ->
  (forall l, In l (suffix_ends fuel (utf8 cs) (utf8 [r])) <-> exists b c, cs = b ++ r :: c /\ l = length (utf8 (b ++ [r]))) /\ StronglySorted lt (suffix_ends fuel (utf8 cs) (utf8 [r])).
Proof.
  intros Vr cs. assert (Hn : exists n, length cs <= n) by (exists (length cs); lia). destruct Hn as [n Hn]. revert cs Hn. induction n as [|n IH]; intros cs Hn Vc fuel L; (destruct fuel as [|f]; [lia|]); cbn [suffix_ends].
  - destruct cs; [|cbn in Hn; lia]. pose proof (last_occ [] r Vc Vr) as LO. destruct (last_index_of _ _) as [i|]; [destruct LO as [a [b [E _]]]; destruct a; discriminate|]. split; [|constructor]. intros l. split; [intros []|]. intros [b [c [E _]]]. destruct b; discriminate.
  - pose proof (last_occ cs r Vc Vr) as LO. destruct (last_index_of _ _) as [i|].
    + destruct LO as [a [b [Ec [-> N]]]]. rewrite Ec, app_firstn_utf8. assert (Va : Forall valid_rune a) by (rewrite Ec, Forall_app in Vc; tauto). rewrite Ec, app_length in Hn, L. cbn [length] in Hn, L. destruct (IH a ltac:(lia) Va f ltac:(lia)) as [I1 I2].
      assert (El : length (utf8 a) + length (utf8 [r]) = length (utf8 (a ++ [r]))) by (rewrite utf8_app, app_length; reflexivity). rewrite El. split.
      * intros l. rewrite in_app_iff, I1. split.
        -- intros [[x [y [Ea ->]]]|[<-|[]]]; [exists x, (y ++ r :: b); split; [rewrite Ea, <- app_assoc; reflexivity|reflexivity]|exists a, b; auto].
        -- intros [x [y [E ->]]]. destruct (Nat.eq_dec (length x) (length a)) as [Lx|Lx].
           ++ right. left. destruct (app_inj_len _ _ _ _ E ltac:(congruence)) as [-> _]. reflexivity.
           ++ left. destruct (Nat.le_gt_cases (length x) (length a)) as [G|G].
              ** symmetry in E. destruct (prefix_split _ _ _ _ E G) as [z [-> E2]]. destruct z as [|z0 z]; [rewrite app_nil_r in Lx; lia|]. cbn [app] in E2. injection E2 as <- _. exists x, z. auto.
              ** exfalso. destruct (prefix_split _ _ _ _ E ltac:(lia)) as [z [-> E2]]. destruct z as [|z0 z]; [rewrite app_nil_r in G; lia|]. cbn [app] in E2. injection E2 as <- E2. apply N. rewrite E2. apply in_or_app. right. left. reflexivity.
      * clear - I1 I2. assert (B : forall l, In l (suffix_ends f (utf8 a) (utf8 [r])) -> l < length (utf8 (a ++ [r]))).
        { intros l I. apply I1 in I. destruct I as [x [y [-> ->]]]. rewrite <- app_assoc. change (r :: y) with ([r] ++ y). rewrite <- !app_assoc, app_assoc. apply utf8_longer. destruct y; discriminate. }
        induction (suffix_ends f (utf8 a) (utf8 [r])) as [|z ls IHl]; [repeat constructor|]. cbn [app]. inversion I2; subst. assert (SS : StronglySorted lt (ls ++ [length (utf8 (a ++ [r]))])).
        { clear I1 IHl. assert (B' : forall l, In l ls -> l < length (utf8 (a ++ [r]))) by (intros l I; apply B; right; exact I). clear B I2 H2. revert B'. generalize (length (utf8 (a ++ [r]))). intros k B'. induction ls as [|w ls IHl]; [repeat constructor|]. cbn [app]. inversion H1; subst. constructor; [apply IHl; [assumption|intros l I; apply B'; right; exact I]|]. apply Forall_app. split; [assumption|]. constructor; [apply B'; left; reflexivity|constructor]. }
        constructor; [exact SS|]. apply Forall_app. split; [assumption|]. constructor; [apply B; left; reflexivity|constructor].
    + split; [|constructor]. intros l. split; [intros []|]. intros [x [y [E _]]]. apply LO. rewrite E. apply in_or_app. right. left. reflexivity.
Qed.
Lemma removelast_in (p b c : list Z) (r : Z) u : p ++ u = b ++ r :: c -> ~ In r (removelast p) -> length p <= length (b ++ [r]).
Proof.
  intros E N. rewrite app_length. cbn [length]. destruct (Nat.le_gt_cases (length p) (length b + 1)) as [|G]; [assumption|]. exfalso. apply N. symmetry in E. destruct (prefix_split _ _ _ _ E ltac:(lia)) as [z [-> E2]]. rewrite app_length in G. destruct z as [|z0 z]; [cbn in G; lia|]. cbn [app] in E2. injection E2 as <- _. destruct z as [|z1 z]; [cbn in G; lia|].
  rewrite removelast_app by discriminate. apply in_or_app. right. left. reflexivity.
Qed.
Lemma exact_prefix_suffix cs p r : Forall valid_rune cs -> Forall valid_rune p -> valid_rune r -> ~ In r (removelast p) -> exact_index (MPrefixSuffix (utf8 p) (utf8 [r])) (fun b => (exists u, b = p ++ u) /\ (exists u, b = u ++ [r])) cs.
Proof.
  intros Vc Vp Vr NR. pose proof (occ cs p Vc Vp) as H. unfold exact_index, Index. cbn [sem sIndex]. destruct (index_of _ _) as [i|].
  2: { intros a b c E [[u ->] _]. apply (H a (u ++ c)). rewrite E, <- app_assoc. reflexivity. }
  destruct H as [a [b [Ec [-> F]]]]. destruct (Nat.eqb_spec (length (utf8 [r])) 0) as [Z|_]; [pose proof (utf8_length_ge [r]); cbn [length] in *; lia|].
  assert (SK : skipn (length (utf8 a)) (utf8 cs) = utf8 (p ++ b)) by (rewrite Ec; apply app_skipn_utf8). rewrite SK. clear SK. assert (Vr' : Forall valid_rune (p ++ b)) by (rewrite Ec, Forall_app in Vc; tauto).
  destruct (suffix_ends_spec r Vr (p ++ b) Vr' (S (length (utf8 cs)))) as [I1 I2]; [pose proof (utf8_length_ge (p ++ b)); rewrite Ec, (utf8_app a), (app_length (utf8 a)); lia|].
  assert (HI : forall l, In l (suffix_ends (S (length (utf8 cs))) (utf8 (p ++ b)) (utf8 [r])) <-> exists x y, p ++ b = x ++ y /\ l = length (utf8 x) /\ (exists u, x = p ++ u) /\ (exists u, x = u ++ [r])).
  { intros l. rewrite I1. split.
    - intros [x [y [E ->]]]. exists (x ++ [r]), y. split; [rewrite E, <- app_assoc; reflexivity|]. split; [reflexivity|]. split; [|exists x; reflexivity].
      pose proof (removelast_in _ _ _ _ _ E NR) as Lp. change (r :: y) with ([r] ++ y) in E. rewrite app_assoc in E. destruct (prefix_split _ _ _ _ E Lp) as [u [Eu _]]. exists u. exact Eu.
    - intros [x [y [E [-> [_ [u ->]]]]]]. exists u, y. split; [rewrite E, <- app_assoc; reflexivity|reflexivity]. }
  destruct (suffix_ends _ _ _) as [|l0 ls] eqn:ES.
  - intros a' b' c' E' [[u ->] [v Ev]]. assert (La : length a <= length a') by (apply (F a' (u ++ c')); rewrite E', <- app_assoc; reflexivity). rewrite Ec in E'. destruct (prefix_split _ _ _ _ E' La) as [z [-> E2]]. rewrite Ev in E2.
    apply (in_nil (a := length (utf8 ((z ++ v) ++ [r])))). apply I1. exists (z ++ v), c'. split; [rewrite E2, <- !app_assoc; reflexivity|reflexivity].
  - exists a, (p ++ b). split; [exact Ec|]. split; [reflexivity|]. split; [discriminate|]. split; [exact HI|]. split; [exact I2|]. intros a' b' c' E' [[u ->] _]. apply (F a' (u ++ c')). rewrite E', <- app_assoc. reflexivity.
Qed.
(** ** Intersections of matchers that answer at the beginning *)
Lemma every_prefix cs (ms : list Matcher) (Ls : list (list Z -> Prop)) : ms <> [] -> Forall2 (fun m L => prefix_index m L cs) ms Ls -> prefix_index (MEveryOf ms) (fun b => Forall (fun L => L b) Ls) cs.
Proof.
  intros N F.
  assert (G : forall ms Ls, Forall2 (fun m L => prefix_index m L cs) ms Ls -> forall (U : list Z -> Prop) cur, cur <> [] -> (forall l, In l cur <-> exists b c, cs = b ++ c /\ l = length (utf8 b) /\ U b) ->
     match every_index false (map sem ms) (utf8 cs) (utf8 cs) 0 0 cur with
     | Some (Some (i, segs)) => i = 0 /\ segs <> [] /\ forall l, In l segs <-> exists b c, cs = b ++ c /\ l = length (utf8 b) /\ (U b /\ Forall (fun L => L b) Ls)
     | Some None => forall b c, cs = b ++ c -> ~ (U b /\ Forall (fun L => L b) Ls) | None => False end).
  { clear. induction 1 as [|m L ms Ls Fm F IH]; intros U cur Nc Hc; cbn [map].
    - cbn [every_index]. split; [reflexivity|]. split; [exact Nc|]. intros l. rewrite Hc. split; intros [b [c [E [El X]]]]; exists b, c; repeat split; auto. apply X.
    - unfold prefix_index, Index in Fm. destruct (sIndex (sem m) (utf8 cs)) as [[[i segs]|]|] eqn:EI; [|cbn [every_index]; rewrite EI; intros b c E [_ X]; exact (Fm b c E (Forall_inv X))|contradiction].
      destruct Fm as [-> [Ns Hs]]. destruct (every_step cur (sem m) (map sem ms) (utf8 cs) segs EI) as [next [Hn En]]. rewrite En.
      assert (HN : forall l, In l next <-> exists b c, cs = b ++ c /\ l = length (utf8 b) /\ (U b /\ L b)).
      { intros l. rewrite Hn, Hc, Hs. split.
        - intros [[b [c [E [El X]]]] [b' [c' [E' [El' X']]]]]. assert (b = b') by (apply (utf8_eq b c b' c'); congruence). subst b'. exists b, c. auto.
        - intros [b [c [E [El [X Y]]]]]. split; exists b, c; auto. }
      destruct next as [|n0 next'] eqn:EN; cbn [length Nat.eqb].
      + intros b c E [X Y]. apply (in_nil (a := length (utf8 b))). apply HN. exists b, c. repeat split; auto. exact (Forall_inv Y).
      + specialize (IH (fun b => U b /\ L b) (n0 :: next') ltac:(discriminate) HN). destruct (every_index false (map sem ms) _ _ _ _ _) as [[[i sg]|]|]; [| |exact IH].
        * destruct IH as [-> [Nsg H]]. split; [reflexivity|]. split; [exact Nsg|]. intros l. rewrite H. split; intros [b [c [E [El [X Y]]]]]; exists b, c; repeat split; auto; [apply X|constructor; [apply X|exact Y]|exact (Forall_inv Y)|exact (Forall_inv_tail Y)].
        * intros b c E [X Y]. apply (IH b c E). split; [split; [exact X|exact (Forall_inv Y)]|exact (Forall_inv_tail Y)]. }
  destruct F as [|m L ms Ls Fm F]; [contradiction|]. unfold prefix_index at 1, Index. cbn [sem sIndex map every_index]. unfold prefix_index, Index in Fm. destruct (sIndex (sem m) (utf8 cs)) as [[[i segs]|]|] eqn:EI; [| |contradiction].
  - destruct Fm as [-> [Ns Hs]]. cbn [negb andb Nat.add]. rewrite slice_all. pose proof (G ms Ls F L segs Ns Hs) as R. destruct (every_index false (map sem ms) _ _ _ _ _) as [[[i sg]|]|]; [| |exact R].
    + destruct R as [-> [Nsg H]]. split; [reflexivity|]. split; [exact Nsg|]. intros l. rewrite H. split; intros [b [c [E [El X]]]]; exists b, c; repeat split; auto; [constructor; tauto|exact (Forall_inv X)|exact (Forall_inv_tail X)].
    + intros b c E Y. apply (R b c E). split; [exact (Forall_inv Y)|exact (Forall_inv_tail Y)].
  - intros b c E Y. exact (Fm b c E (Forall_inv Y)).
Qed.
(** ** Fixed lengths: rows (ASCII) *)
Lemma utf8_ascii s : ascii s -> utf8 s = s.
Proof. induction 1 as [|c s Ac A IH]; [reflexivity|]. rewrite utf8_cons, encode_ascii, IH by exact Ac. reflexivity. Qed.
Lemma exact_fixed m k (L : list Z -> Prop) cs : fixed k L (sem m) -> ascii cs -> exact_index m L cs.
Proof.
  intros [_ [K [FL [_ [FI _]]]]] A. specialize (FI cs A). unfold exact_index, Index. rewrite (utf8_ascii cs A). destruct (sIndex (sem m) cs) as [[[i segs]|]|]; [| |exact FI].
  - destruct FI as [-> [Li [HL F]]]. pose proof (split3 cs i k) as S3. exists (firstn i cs), (skipn i cs). split; [symmetry; apply firstn_skipn|]. split; [rewrite (utf8_ascii _ (ascii_firstn i cs A)), firstn_length; lia|]. split; [discriminate|]. split; [|split; [repeat constructor|]].
    + intros l. split.
      * intros [<-|[]]. exists (sub cs i k), (skipn k (skipn i cs)). split; [symmetry; apply firstn_skipn|]. split; [rewrite (utf8_ascii _ (ascii_sub _ _ _ A)), sub_len by lia; reflexivity|exact HL].
      * intros [b [c [E [-> Lb]]]]. left. assert (Ab : ascii b) by (apply (ascii_skipn i) in A; rewrite E in A; apply ascii_app in A; tauto). rewrite (utf8_ascii _ Ab). symmetry. apply FL, Lb.
    + intros a b c E Lb. rewrite firstn_length. destruct (Nat.le_gt_cases i (length a)) as [|G]; [lia|]. exfalso. apply (F (length a) G). rewrite E. rewrite <- (FL b Lb). rewrite sub_at. exact Lb.
  - intros a b c E Lb. apply (FI (length a)). rewrite E, <- (FL b Lb), sub_at. exact Lb.
Qed.
