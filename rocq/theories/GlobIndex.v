(** * Proofs about Index (C64). *)
From Coq Require Import String.
From Coq Require Import ZArith Arith List Bool Lia Sorting.Sorted.
From Verif Require Import Utf8 GoStr GlobLex GlobMatch GlobSpec GlobSem GlobText GlobIndexSpec.
Import ListNotations.
Open Scope nat_scope.

Lemma utf8_app a b : utf8 (a ++ b) = utf8 a ++ utf8 b.
Proof. unfold utf8. rewrite map_app, concat_app. reflexivity. Qed.
Lemma utf8_cons c a : utf8 (c :: a) = encode c ++ utf8 a.
Proof. reflexivity. Qed.
Lemma enc_len c : 1 <= length (encode c).
Proof. pose proof (encode_nonempty c). destruct (encode c); [contradiction|cbn; lia]. Qed.
Lemma utf8_nil a : utf8 a = [] -> a = [].
Proof. destruct a as [|c a]; [reflexivity|]. rewrite utf8_cons. intros H. pose proof (enc_len c) as L. apply (f_equal (@length Z)) in H. rewrite app_length in H. cbn in H. lia. Qed.
Lemma utf8_inj a b : Forall valid_rune a -> Forall valid_rune b -> utf8 a = utf8 b -> a = b.
Proof. intros Va Vb E. apply (f_equal runes) in E. rewrite !runes_utf8 in E by assumption. exact E. Qed.
Lemma utf8_prefix t : forall b y, Forall valid_rune t -> Forall valid_rune b -> utf8 b = utf8 t ++ y -> exists b', b = t ++ b' /\ y = utf8 b'.
Proof.
  induction t as [|c t IH]; intros b y Vt Vb E; [exists b; auto|]. inversion Vt as [|? ? Vc Vt']; subst. destruct b as [|d b].
  - symmetry in E. rewrite utf8_cons, <- app_assoc in E. apply (f_equal (@length Z)) in E. rewrite app_length in E. pose proof (enc_len c). cbn in E. lia.
  - inversion Vb as [|? ? Vd Vb']; subst. rewrite !utf8_cons, <- app_assoc in E. pose proof (f_equal decode E) as D. rewrite !decode_encode in D by assumption. injection D as -> _. apply app_inv_head in E. destruct (IH b y Vt' Vb' E) as [b' [-> ->]]. exists b'. auto.
Qed.
Lemma boundary cs : forall x h y, utf8 cs = x ++ h :: y -> cont h = false -> exists a b, cs = a ++ b /\ x = utf8 a.
Proof.
  induction cs as [|c cs IH]; intros x h y E C; [destruct x; discriminate|]. destruct x as [|x0 x]; [exists [], (c :: cs); auto|]. rewrite utf8_cons in E. destruct (encode_bytes_shape c) as [h0 [tl [Ec [_ Ct]]]].
  rewrite Ec in E. cbn [app] in E. injection E as <- E. destruct (Nat.lt_ge_cases (length x) (length tl)) as [L|L].
  - exfalso. pose proof (f_equal (fun l => nth (length x) l 0%Z) E) as N. cbn beta in N. rewrite app_nth1 in N by exact L. rewrite app_nth2, Nat.sub_diag in N by lia. cbn [nth] in N.
    rewrite Forall_forall in Ct. rewrite <- N in C. rewrite (Ct (nth (length x) tl 0%Z)) in C by (apply nth_In, L). discriminate.
  - pose proof (f_equal (firstn (length tl)) E) as F. rewrite !firstn_app, firstn_all, Nat.sub_diag, firstn_O, app_nil_r in F. replace (length tl - length x) with 0 in F by lia. cbn [firstn] in F. rewrite app_nil_r in F.
    rewrite <- (firstn_skipn (length tl) x), <- F, <- app_assoc in E. apply app_inv_head in E. destruct (IH _ _ _ E C) as [a [b [-> Ex]]]. exists (c :: a), b. split; [reflexivity|]. rewrite utf8_cons, Ec, <- Ex. cbn [app]. f_equal. rewrite <- (firstn_skipn (length tl) x) at 1. rewrite <- F. reflexivity.
Qed.
(** An occurrence of a text starts and ends at character boundaries. *)
Lemma sync cs t x y : Forall valid_rune cs -> Forall valid_rune t -> t <> [] -> utf8 cs = x ++ utf8 t ++ y -> exists a b, cs = a ++ t ++ b /\ x = utf8 a /\ y = utf8 b.
Proof.
  intros Vc Vt N E. destruct t as [|c t]; [contradiction|]. destruct (encode_bytes_shape c) as [h [tl [Ec [Ch _]]]]. pose proof E as E0. rewrite utf8_cons, Ec in E0. cbn [app] in E0. destruct (boundary cs x h _ E0 Ch) as [a [b [-> ->]]].
  rewrite utf8_app in E. apply app_inv_head in E. apply Forall_app in Vc. destruct (utf8_prefix (c :: t) b y Vt (proj2 Vc) E) as [b' [-> ->]]. exists a, b'. auto.
Qed.
Lemma prefix_split {A} (a : list A) : forall b c d, a ++ b = c ++ d -> length a <= length c -> exists e, c = a ++ e /\ b = e ++ d.
Proof.
  induction a as [|x a IH]; intros b c d E L; [exists c; auto|]. destruct c as [|y c]; [cbn in L; lia|]. cbn [app] in E. injection E as <- E. destruct (IH b c d E ltac:(cbn in L; lia)) as [e [-> ->]]. exists e. auto.
Qed.
Lemma utf8_longer a e : e <> [] -> length (utf8 a) < length (utf8 (a ++ e)).
Proof. intros N. rewrite utf8_app, app_length. destruct (utf8 e) eqn:E; [apply utf8_nil in E; contradiction|]. cbn. lia. Qed.
Lemma sub_at x t y : sub (x ++ t ++ y) (length x) (length t) = t.
Proof. apply sub_app3. Qed.
(** index_of, in characters. *)
Lemma occ cs t : Forall valid_rune cs -> Forall valid_rune t ->
  match index_of (utf8 cs) (utf8 t) with
  | Some i => exists a b, cs = a ++ t ++ b /\ i = length (utf8 a) /\ forall a' b', cs = a' ++ t ++ b' -> length a <= length a'
  | None => forall a b, cs <> a ++ t ++ b
  end.
Proof.
  intros Vc Vt. destruct (list_eq_dec Z.eq_dec t []) as [->|N].
  - change (utf8 []) with (@nil Z). assert (E : index_of (utf8 cs) [] = Some 0) by (unfold index_of; destruct (utf8 cs); reflexivity). rewrite E. exists [], cs. repeat split. intros; cbn; lia.
  - pose proof (index_of_spec (utf8 cs) (utf8 t)) as H. destruct (index_of (utf8 cs) (utf8 t)) as [i|].
    + destruct H as [Li [E F]]. pose proof (split3 (utf8 cs) i (length (utf8 t))) as S3. rewrite E in S3. destruct (sync _ _ _ _ Vc Vt N S3) as [a [b [Ec [Ea Eb]]]]. exists a, b. split; [exact Ec|]. split; [rewrite <- Ea, firstn_length; lia|].
      intros a' b' E'. destruct (Nat.le_gt_cases (length a) (length a')) as [|L]; [assumption|]. exfalso. rewrite Ec in E'. symmetry in E'. destruct (prefix_split _ _ _ _ E' ltac:(lia)) as [e [Ee _]].
      assert (Ne : e <> []) by (intros ->; rewrite app_nil_r in Ee; subst a; lia). apply (F (length (utf8 a'))).
      * pose proof (utf8_longer a' e Ne) as U. rewrite <- Ee, <- Ea, firstn_length in U. lia.
      * rewrite Ec, <- E', !utf8_app. apply sub_at.
    + intros a b E. apply (H (length (utf8 a))); [rewrite E, !utf8_app, !app_length; lia|]. rewrite E, !utf8_app. apply sub_at.
Qed.
(** ** Positions of the characters *)
Fixpoint marks (n : nat) (cs : list Z) : list (nat * Z) := match cs with [] => [] | c :: t => (n, c) :: marks (n + length (encode c)) t end.
Fixpoint bounds (n : nat) (cs : list Z) : list nat := n :: match cs with [] => [] | c :: t => bounds (n + length (encode c)) t end.
Lemma range_from_marks cs : Forall valid_rune cs -> forall fuel i, length (utf8 cs) <= fuel -> range_from fuel i (utf8 cs) = marks i cs.
Proof.
  induction 1 as [|c cs Vc V IH]; intros fuel i L; [destruct fuel; reflexivity|]. rewrite utf8_cons in *. rewrite app_length in L. pose proof (enc_len c) as Lc. destruct fuel as [|f]; [lia|]. cbn [marks].
  rewrite <- (IH f (i + length (encode c)) ltac:(lia)). cbn [range_from]. pose proof (decode_encode c (utf8 cs) Vc) as D. destruct (encode c ++ utf8 cs) as [|b s] eqn:E; [apply (f_equal (@length Z)) in E; rewrite app_length in E; cbn in E; lia|]. rewrite D. f_equal. f_equal. rewrite <- E. rewrite skipn_app, skipn_all, Nat.sub_diag. reflexivity.
Qed.
Lemma range_marks cs : Forall valid_rune cs -> range_str (utf8 cs) = marks 0 cs.
Proof. intros V. apply range_from_marks; [exact V|lia]. Qed.
Lemma bounds_in cs : forall n l, In l (bounds n cs) <-> exists b c, cs = b ++ c /\ l = n + length (utf8 b).
Proof.
  induction cs as [|c cs IH]; intros n l; cbn [bounds].
  - split; [intros [<-|[]]; exists [], []; split; [reflexivity|cbn; lia]|]. intros [b [d [E ->]]]. symmetry in E. apply app_eq_nil in E. destruct E as [-> _]. left. cbn. lia.
  - cbn [In]. rewrite IH. split.
    + intros [<-|[b [d [-> ->]]]]; [exists [], (c :: cs); split; [reflexivity|cbn; lia]|]. exists (c :: b), d. split; [reflexivity|]. rewrite utf8_cons, app_length. lia.
    + intros [b [d [E ->]]]. destruct b as [|x b]; [left; cbn; lia|]. cbn [app] in E. injection E as <- ->. right. exists b, d. split; [reflexivity|]. rewrite utf8_cons, app_length. lia.
Qed.
Lemma bounds_sorted cs : forall n, StronglySorted lt (bounds n cs).
Proof.
  induction cs as [|c cs IH]; intros n; cbn [bounds]; constructor; try constructor; [apply IH|]. apply Forall_forall. intros l I. apply bounds_in in I. destruct I as [b [d [_ ->]]]. pose proof (enc_len c). lia.
Qed.
Lemma bounds_marks cs : forall n, map fst (marks n cs) ++ [n + length (utf8 cs)] = bounds n cs.
Proof.
  induction cs as [|c cs IH]; intros n; cbn [marks map app bounds fst]; [cbn; f_equal; lia|]. f_equal. rewrite <- IH. f_equal. f_equal. rewrite utf8_cons, app_length. lia.
Qed.
Lemma segments_bounds cs : Forall valid_rune cs -> all_segments (utf8 cs) = bounds 0 cs.
Proof. intros V. unfold all_segments. rewrite range_marks by exact V. apply (bounds_marks cs 0). Qed.
Lemma bounds_shift cs : forall d n, map (Nat.add d) (bounds n cs) = bounds (d + n) cs.
Proof. induction cs as [|c cs IH]; intros d n; cbn [bounds map]; [reflexivity|]. f_equal. rewrite IH. f_equal. lia. Qed.
Lemma ends_bounds cs : Forall valid_rune cs -> forall d n, d + n :: map (fun ir => d + fst ir + RuneLen (snd ir)) (marks n cs) = bounds (d + n) cs.
Proof.
  induction 1 as [|c cs Vc V IH]; intros d n; cbn [marks map bounds fst snd]; [reflexivity|]. f_equal. specialize (IH d (n + length (encode c))). unfold RuneLen at 1. rewrite <- (Nat.add_assoc d n). exact IH.
Qed.
Lemma bounds_skipn cs : forall k n, k <= length cs -> skipn k (bounds n cs) = bounds (n + length (utf8 (firstn k cs))) (skipn k cs).
Proof.
  induction cs as [|c cs IH]; intros k n L.
  - destruct k; [|cbn in L; lia]. cbn. f_equal. lia.
  - destruct k as [|k]; [cbn [skipn firstn]; change (utf8 []) with (@nil Z); cbn [length]; f_equal; lia|]. cbn [bounds skipn firstn]. rewrite IH by (cbn in L; lia). f_equal. rewrite utf8_cons, app_length. lia.
Qed.
Lemma bounds_length cs : forall n, length (bounds n cs) = S (length cs).
Proof. induction cs as [|c cs IH]; intros n; cbn [bounds length]; [reflexivity|]. rewrite IH. reflexivity. Qed.
Lemma marks_firstn cs : forall k n, firstn k (marks n cs) = marks n (firstn k cs).
Proof. induction cs as [|c cs IH]; intros [|k] n; cbn [marks firstn]; try reflexivity. rewrite IH. reflexivity. Qed.
Lemma marks_length cs : forall n, length (marks n cs) = length cs.
Proof. induction cs as [|c cs IH]; intros n; cbn [marks length]; [reflexivity|]. rewrite IH. reflexivity. Qed.
Lemma find_marks p cs : forall n, match find (fun ir => p (snd ir)) (marks n cs) with
  | Some (i, r) => exists a b, cs = a ++ r :: b /\ i = n + length (utf8 a) /\ p r = true /\ Forall (fun c => p c = false) a
  | None => Forall (fun c => p c = false) cs end.
Proof.
  induction cs as [|c cs IH]; intros n; cbn [marks find snd]; [constructor|]. destruct (p c) eqn:P.
  - exists [], cs. split; [reflexivity|]. split; [cbn; lia|]. split; [exact P|constructor].
  - specialize (IH (n + length (encode c))). destruct (find _ _) as [[i r]|].
    + destruct IH as [a [b [-> [-> [Pr F]]]]]. exists (c :: a), b. split; [reflexivity|]. split; [rewrite utf8_cons, app_length; lia|]. split; [exact Pr|constructor; assumption].
    + constructor; assumption.
Qed.
Lemma encode_ascii' c : (0 <= c < 128)%Z -> utf8 [c] = [c].
Proof. intros B. rewrite utf8_cons, encode_ascii by exact B. reflexivity. Qed.
(** IndexRune and IndexAnyRunes, in characters. *)
Lemma first_occ (cs : list Z) (r : Z) (a b : list Z) : cs = a ++ [r] ++ b -> (forall a' b', cs = a' ++ [r] ++ b' -> length a <= length a') -> ~ In r a.
Proof. intros E F I. apply in_split in I. destruct I as [x [y ->]]. assert (length (x ++ r :: y) <= length x) by (apply (F x (y ++ r :: b)); rewrite E, <- app_assoc; reflexivity). rewrite app_length in H. cbn in H. lia. Qed.
Lemma index_rune_utf8 cs r : Forall valid_rune cs -> valid_rune r ->
  match index_rune (utf8 cs) r with Some i => exists a b, cs = a ++ [r] ++ b /\ i = length (utf8 a) /\ ~ In r a | None => ~ In r cs end.
Proof.
  intros Vc Vr. assert (K : index_rune (utf8 cs) r = index_of (utf8 cs) (utf8 [r]) -> match index_rune (utf8 cs) r with Some i => exists a b, cs = a ++ [r] ++ b /\ i = length (utf8 a) /\ ~ In r a | None => ~ In r cs end).
  { intros E. rewrite E. pose proof (occ cs [r] Vc ltac:(constructor; [exact Vr|constructor])) as H. destruct (index_of _ _) as [i|].
    - destruct H as [a [b [Ec [-> F]]]]. exists a, b. split; [exact Ec|]. split; [reflexivity|]. eapply first_occ; eauto.
    - intros I. apply in_split in I. destruct I as [x [y ->]]. apply (H x y). reflexivity. }
  unfold index_rune in *. destruct (((0 <=? r) && (r <? 128))%Z) eqn:A.
  - apply K. rewrite andb_true_iff, Z.leb_le, Z.ltb_lt in A. rewrite encode_ascii' by exact A. reflexivity.
  - destruct (Z.eqb_spec r RuneError) as [->|].
    + rewrite range_marks by exact Vc. pose proof (find_marks (fun c => (c =? RuneError)%Z) cs 0) as H. cbn beta in H. destruct (find (fun ir => (snd ir =? RuneError)%Z) (marks 0 cs)) as [[i q]|] eqn:FE.
      * destruct H as [a [b [Ec [-> [Q F]]]]]. apply Z.eqb_eq in Q. subst q. exists a, b. split; [exact Ec|]. split; [reflexivity|]. intros I. rewrite Forall_forall in F. specialize (F _ I). cbn in F. discriminate.
      * intros I. rewrite Forall_forall in H. specialize (H _ I). cbn in H. discriminate.
    + destruct Vr as [B Su]. rewrite Su in *. destruct (Z.ltb_spec r 0); [lia|]. destruct (Z.gtb_spec r 1114111); [lia|]. cbn [orb] in *. apply K. rewrite utf8_cons. change (utf8 []) with (@nil Z). rewrite app_nil_r. reflexivity.
Qed.
Lemma index_seps cs e : Forall valid_rune cs -> Forall valid_rune e -> length e <= 1 ->
  match IndexAnyRunes (utf8 cs) e with
  | Some i => exists a r b, cs = a ++ r :: b /\ i = length (utf8 a) /\ In r e /\ Forall (fun c => ~ In c e) a
  | None => Forall (fun c => ~ In c e) cs
  end.
Proof.
  intros Vc Ve L. destruct e as [|r [|]]; [cbn [IndexAnyRunes]; apply Forall_forall; intros ? ? []| |cbn in L; lia]. inversion Ve as [|? ? Vr _]; subst. cbn [IndexAnyRunes]. pose proof (index_rune_utf8 cs r Vc Vr) as H. destruct (index_rune _ _) as [i|].
  - destruct H as [a [b [-> [-> N]]]]. exists a, r, b. split; [reflexivity|]. split; [reflexivity|]. split; [left; reflexivity|]. apply Forall_forall. intros c I [<-|[]]. contradiction.
  - apply Forall_forall. intros c I [<-|[]]. contradiction.
Qed.
(** The longest prefix without separators. *)
Lemma seps_cut cs e : Forall valid_rune cs -> Forall valid_rune e -> length e <= 1 ->
  exists a, (match IndexAnyRunes (utf8 cs) e with Some k => firstn k (utf8 cs) | None => utf8 cs end) = utf8 a /\ Forall valid_rune a
    /\ forall b, (exists d, a = b ++ d) <-> (exists d, cs = b ++ d) /\ Forall (fun c => ~ In c e) b.
Proof.
  intros Vc Ve L. pose proof (index_seps cs e Vc Ve L) as H. destruct (IndexAnyRunes _ _) as [i|].
  - destruct H as [a [r [b [-> [-> [I F]]]]]]. exists a. split; [rewrite utf8_app, firstn_app, firstn_all, Nat.sub_diag, firstn_O, app_nil_r; reflexivity|]. apply Forall_app in Vc. split; [tauto|]. intros x. split.
    + intros [d ->]. split; [exists (d ++ r :: b); rewrite app_assoc; reflexivity|]. apply Forall_app in F. tauto.
    + intros [[d E] Fx]. destruct (Nat.le_gt_cases (length x) (length a)) as [Lx|Lx].
      * symmetry in E. destruct (prefix_split _ _ _ _ E Lx) as [y [-> _]]. exists y. reflexivity.
      * exfalso. destruct (prefix_split _ _ _ _ E ltac:(lia)) as [y [-> E2]]. destruct y as [|z y]; [rewrite app_nil_r in Lx; lia|]. cbn [app] in E2. injection E2 as <- _. apply Forall_app in Fx. destruct Fx as [_ Fx]. inversion Fx; subst. contradiction.
  - exists cs. split; [reflexivity|]. split; [exact Vc|]. intros x. split; [intros [d ->]; split; [exists d; reflexivity|]; apply Forall_app in H; tauto|tauto].
Qed.
(** ** Each matcher *)
Section Exact.
Variable cs : list Z.
Hypothesis Vc : Forall valid_rune cs.
Notation exact m L := (exact_index m L cs).
Lemma valid_mid (a b c : list Z) : cs = a ++ b ++ c -> Forall valid_rune a /\ Forall valid_rune b /\ Forall valid_rune c.
Proof. intros ->. rewrite !Forall_app in Vc. tauto. Qed.
Lemma exact_ext m (L L' : list Z -> Prop) : (forall b, Forall valid_rune b -> (L b <-> L' b)) -> exact m L -> exact m L'.
Proof.
  intros H E. unfold exact_index in *. destruct (Index m (utf8 cs)) as [[[i segs]|]|]; [| |exact E].
  - destruct E as [a [rest [Ec [Ei [Ne [Hs [So F]]]]]]]. exists a, rest. split; [exact Ec|]. split; [exact Ei|]. split; [exact Ne|]. assert (V : Forall valid_rune rest) by (rewrite Ec, Forall_app in Vc; tauto). split; [|split; [exact So|]].
    + intros l. rewrite Hs. split; intros [b [c [Er [El HL]]]]; exists b, c; (split; [exact Er|]); (split; [exact El|]); apply H; [|exact HL| |exact HL]; rewrite Er, Forall_app in V; tauto.
    + intros a' b' c' E' HL. apply (F a' b' c' E'). apply H; [apply (valid_mid a' b' c' E')|exact HL].
  - intros a b c E' HL. apply (E a b c E'). apply H; [apply (valid_mid a b c E')|exact HL].
Qed.
(** A result at the beginning. *)
Lemma exact_zero m L segs : Index m (utf8 cs) = Some (Some (0, segs)) -> segs <> [] -> (forall l, In l segs <-> exists b c, cs = b ++ c /\ l = length (utf8 b) /\ L b) -> StronglySorted lt segs -> exact m L.
Proof. intros E N H So. unfold exact_index. rewrite E. exists [], cs. split; [reflexivity|]. split; [reflexivity|]. split; [exact N|]. split; [exact H|]. split; [exact So|]. intros; cbn; lia. Qed.
Lemma bounds_ne n l : bounds n l <> [].
Proof. destruct l; discriminate. Qed.
Lemma exact_text t : Forall valid_rune t -> exact (MText (utf8 t)) (fun b => b = t).
Proof.
  intros Vt. unfold exact_index, Index. cbn [sem sIndex]. pose proof (occ cs t Vc Vt) as H. destruct (index_of _ _) as [i|].
  - destruct H as [a [b [Ec [-> F]]]]. exists a, (t ++ b). split; [exact Ec|]. split; [reflexivity|]. split; [discriminate|]. split; [|split; [repeat constructor|]].
    + intros l. split; [intros [<-|[]]; exists t, b; auto|]. intros [x [y [_ [-> ->]]]]. left. reflexivity.
    + intros a' b' c' E' ->. apply (F a' c' E').
  - intros a b c E ->. apply (H a c E).
Qed.
Lemma exact_super : exact MSuper (fun _ => True).
Proof.
  apply exact_zero with (bounds 0 cs); [unfold Index; cbn [sem sIndex]; rewrite segments_bounds by exact Vc; reflexivity|apply bounds_ne| |apply bounds_sorted].
  intros l. rewrite bounds_in. split; intros [b [c H]]; exists b, c; [tauto|tauto].
Qed.
Lemma exact_any e : Forall valid_rune e -> length e <= 1 -> exact (MAny e) (Forall (fun c => ~ In c e)).
Proof.
  intros Ve L. destruct (seps_cut cs e Vc Ve L) as [a [Ea [Va Ha]]]. apply exact_zero with (bounds 0 a); [|apply bounds_ne| |apply bounds_sorted].
  - unfold Index. cbn [sem sIndex]. rewrite <- segments_bounds by exact Va. rewrite <- Ea. destruct (IndexAnyRunes (utf8 cs) e) as [[|k]|]; reflexivity.
  - intros l. rewrite bounds_in. split.
    + intros [b [d [E ->]]]. destruct (proj1 (Ha b) (ex_intro _ d E)) as [[d' E'] F]. exists b, d'. auto.
    + intros [b [d [E [-> F]]]]. destruct (proj2 (Ha b) (conj (ex_intro _ d E) F)) as [d' E']. exists b, d'. auto.
Qed.
Lemma exact_one m p q : (forall s, sIndex (sem m) s = Some (first_rune p s)) -> (forall c, p c = true <-> q c) -> exact m (fun b => exists c, b = [c] /\ q c).
Proof.
  intros M PQ. unfold exact_index, Index. rewrite M. unfold first_rune. rewrite range_marks by exact Vc. pose proof (find_marks p cs 0) as H. destruct (find _ _) as [[i r]|].
  - destruct H as [a [b [Ec [-> [Pr F]]]]]. cbn [Nat.add]. exists a, (r :: b). split; [exact Ec|]. split; [reflexivity|]. split; [discriminate|]. split; [|split; [repeat constructor|]].
    + intros l. unfold RuneLen. cbn [In]. split.
      * intros [<-|[]]. exists [r], b. split; [reflexivity|]. split; [rewrite utf8_cons; change (utf8 []) with (@nil Z); rewrite app_nil_r; reflexivity|]. exists r. split; [reflexivity|apply PQ, Pr].
      * intros [x [y [E [-> [c [-> _]]]]]]. cbn [app] in E. injection E as <- _. left. rewrite utf8_cons. change (utf8 []) with (@nil Z). rewrite app_nil_r. reflexivity.
    + intros a' b' c' E' [c [-> Qc]]. destruct (Nat.le_gt_cases (length a) (length a')) as [|L]; [assumption|]. exfalso. rewrite Ec in E'. symmetry in E'. destruct (prefix_split _ _ _ _ E' ltac:(lia)) as [y [Ey E2]]. destruct y as [|z y]; [rewrite app_nil_r in Ey; subst a; lia|].
      cbn [app] in E2. injection E2 as -> _. rewrite Ey, Forall_app in F. destruct F as [_ F]. inversion F as [|? ? Fz _]; subst. apply PQ in Qc. congruence.
  - intros a b c E [x [-> Qx]]. rewrite E, !Forall_app in H. destruct H as [_ [H _]]. inversion H as [|? ? Hx _]; subst. apply PQ in Qx. congruence.
Qed.
Lemma exact_nothing : exact MNothing (fun b => b = []).
Proof.
  apply exact_zero with [0]; [reflexivity|discriminate| |repeat constructor]. intros l. split; [intros [<-|[]]; exists [], cs; auto|]. intros [b [c [_ [-> ->]]]]. left. reflexivity.
Qed.
Lemma map_skipn {A B} (f : A -> B) l : forall n, map f (skipn n l) = skipn n (map f l).
Proof. induction l as [|x l IH]; intros [|n]; cbn; try reflexivity. apply IH. Qed.
Lemma utf8_length_ge l : length l <= length (utf8 l).
Proof. induction l as [|c l IH]; [cbn; lia|]. rewrite utf8_cons, app_length. pose proof (enc_len c). cbn [length]. lia. Qed.
Lemma exact_min n : exact (MMin n) (fun b => n <= length b /\ 1 <= length b).
Proof.
  set (k := Nat.max n 1). destruct (Nat.le_gt_cases k (length cs)) as [L|L].
  - apply exact_zero with (bounds (length (utf8 (firstn k cs))) (skipn k cs)); [|apply bounds_ne| |apply bounds_sorted].
    + unfold Index. cbn [sem sIndex]. rewrite range_marks by exact Vc. pose proof (utf8_length_ge cs). destruct (Z.leb_spec (Z.of_nat (length (utf8 cs)) - Z.of_nat n + 1) 0) as [X|_]; [unfold k in L; lia|].
      rewrite map_skipn. pose proof (ends_bounds cs Vc 0 0) as E. cbn [Nat.add] in E. assert (B : skipn (n - 1) (map (fun ir => fst ir + RuneLen (snd ir)) (marks 0 cs)) = bounds (length (utf8 (firstn k cs))) (skipn k cs)).
      { pose proof (bounds_skipn cs k 0 L) as BS. cbn [Nat.add] in BS. rewrite <- BS, <- E. replace k with (S (n - 1)) by (unfold k; lia). reflexivity. }
      rewrite B. destruct (bounds (length (utf8 (firstn k cs))) (skipn k cs)) eqn:X; [exfalso; eapply bounds_ne; exact X|reflexivity].
    + intros l. rewrite bounds_in. split.
      * intros [b [c [E ->]]]. exists (firstn k cs ++ b), c. split; [rewrite <- app_assoc, <- E, firstn_skipn; reflexivity|]. split; [rewrite utf8_app, app_length; lia|]. rewrite app_length, firstn_length. unfold k in *. lia.
      * intros [b [c [E [-> H]]]]. assert (Lk : length (firstn k cs) <= length b) by (rewrite firstn_length; unfold k; lia). rewrite <- (firstn_skipn k cs) in E. destruct (prefix_split _ _ _ _ E Lk) as [x [-> E2]]. exists x, c. split; [exact E2|]. rewrite utf8_app, app_length. lia.
  - unfold exact_index, Index. cbn [sem sIndex]. rewrite range_marks by exact Vc. assert (B : map (fun ir => fst ir + RuneLen (snd ir)) (skipn (n - 1) (marks 0 cs)) = []).
    { rewrite skipn_all2; [reflexivity|]. rewrite marks_length. unfold k in L. lia. }
    rewrite B. assert (NO : forall a b c, cs = a ++ b ++ c -> ~ (n <= length b /\ 1 <= length b)) by (intros a b c E H; apply (f_equal (@length Z)) in E; rewrite !app_length in E; unfold k in L; lia).
    destruct (_ <=? 0)%Z; exact NO.
Qed.
Lemma exact_max n : exact (MMax n) (fun b => length b <= n).
Proof.
  apply exact_zero with (bounds 0 (firstn n cs)); [|apply bounds_ne| |apply bounds_sorted].
  - unfold Index. cbn [sem sIndex]. rewrite range_marks by exact Vc. rewrite marks_firstn. assert (Vf : Forall valid_rune (firstn n cs)) by (rewrite <- (firstn_skipn n cs), Forall_app in Vc; tauto). pose proof (ends_bounds (firstn n cs) Vf 0 0) as EB. cbn [Nat.add] in EB. rewrite <- EB. reflexivity.
  - intros l. rewrite bounds_in. split.
    + intros [b [c [E ->]]]. exists b, (c ++ skipn n cs). split; [rewrite app_assoc, <- E, firstn_skipn; reflexivity|]. split; [reflexivity|]. apply (f_equal (@length Z)) in E. rewrite firstn_length, app_length in E. lia.
    + intros [b [c [E [-> H]]]]. assert (Lb : length b <= length (firstn n cs)) by (rewrite firstn_length, E, app_length; lia). pose proof E as E2. rewrite <- (firstn_skipn n cs) in E2. symmetry in E2. destruct (prefix_split _ _ _ _ E2 Lb) as [x [Ex _]]. exists b, x. auto.
Qed.
Lemma exact_contains t : Forall valid_rune t -> exact (MContains (utf8 t) false) (fun b => exists u v, b = u ++ t ++ v).
Proof.
  intros Vt. pose proof (occ cs t Vc Vt) as H. unfold exact_index, Index. cbn [sem sIndex]. destruct (index_of _ _) as [i|].
  - destruct H as [a [b [Ec [-> F]]]]. cbv zeta.
    assert (X : (if length (utf8 cs) <=? length (utf8 a) + length (utf8 t) then Some (0, [length (utf8 a) + length (utf8 t)]) else Some (0, map (Nat.add (length (utf8 a) + length (utf8 t))) (all_segments (skipn (length (utf8 a) + length (utf8 t)) (utf8 cs))))) = Some (0, bounds (length (utf8 a) + length (utf8 t)) b)).
    { assert (S1 : skipn (length (utf8 a) + length (utf8 t)) (utf8 cs) = utf8 b) by (rewrite Ec, !utf8_app, <- app_length, app_assoc, skipn_app, skipn_all, Nat.sub_diag; reflexivity). rewrite S1. assert (Vb : Forall valid_rune b) by apply (valid_mid _ _ _ Ec).
      assert (Lc : length (utf8 cs) = length (utf8 a) + length (utf8 t) + length (utf8 b)) by (rewrite Ec, !utf8_app, !app_length; lia). destruct (Nat.leb_spec (length (utf8 cs)) (length (utf8 a) + length (utf8 t))) as [L|L].
      - assert (b = []) by (apply utf8_nil; destruct (utf8 b); [reflexivity|cbn in Lc; lia]). subst b. reflexivity.
      - rewrite segments_bounds by exact Vb. rewrite bounds_shift, Nat.add_0_r. reflexivity. }
    rewrite X. exists [], cs. split; [reflexivity|]. split; [reflexivity|]. split; [apply bounds_ne|]. split; [|split; [apply bounds_sorted|intros; cbn; lia]].
    intros l. rewrite bounds_in. split.
    + intros [u [v [-> ->]]]. exists (a ++ t ++ u), v. split; [rewrite Ec, <- !app_assoc; reflexivity|]. split; [rewrite !utf8_app, !app_length; lia|]. exists a, u. reflexivity.
    + intros [x [y [E [-> [u [v ->]]]]]]. assert (La : length a <= length u) by (apply (F u (v ++ y)); rewrite E, <- !app_assoc; reflexivity).
      assert (Lx : length (a ++ t) <= length (u ++ t ++ v)) by (rewrite !app_length; lia). pose proof E as E2. rewrite Ec, app_assoc in E2. destruct (prefix_split _ _ _ _ E2 Lx) as [w [Ew E3]]. exists w, y. split; [exact E3|]. rewrite Ew, !utf8_app, !app_length. lia.
  - intros a b c E [u [v ->]]. apply (H (a ++ u) (v ++ c)). rewrite E, <- !app_assoc. reflexivity.
Qed.
Lemma occ_one r : valid_rune r -> match index_of (utf8 cs) (utf8 [r]) with Some i => exists a b, cs = a ++ [r] ++ b /\ i = length (utf8 a) /\ ~ In r a | None => ~ In r cs end.
Proof.
  intros Vr. pose proof (occ cs [r] Vc ltac:(constructor; [exact Vr|constructor])) as H. destruct (index_of _ _) as [i|].
  - destruct H as [a [b [Ec [-> F]]]]. exists a, b. split; [exact Ec|]. split; [reflexivity|]. eapply first_occ; eauto.
  - intros I. apply in_split in I. destruct I as [x [y E]]. apply (H x y). exact E.
Qed.
Lemma no_occ (r : Z) (b : list Z) : ~ (exists u v, b = u ++ [r] ++ v) <-> ~ In r b.
Proof. split; intros H G; apply H; [apply in_split in G; destruct G as [u [v ->]]; exists u, v; reflexivity|destruct G as [u [v ->]]; apply in_or_app; right; left; reflexivity]. Qed.
Lemma exact_not_contains r : valid_rune r -> exact (MContains (utf8 [r]) true) (fun b => ~ exists u v, b = u ++ [r] ++ v).
Proof.
  intros Vr. pose proof (occ_one r Vr) as H.
  assert (X : exists a, Index (MContains (utf8 [r]) true) (utf8 cs) = Some (Some (0, bounds 0 a)) /\ forall b, (exists d, a = b ++ d) <-> (exists d, cs = b ++ d) /\ ~ In r b).
  { unfold Index. cbn [sem sIndex]. destruct (index_of _ _) as [i|].
    - destruct H as [a [b [Ec [-> N]]]]. exists a. split.
      + assert (Va : Forall valid_rune a) by apply (valid_mid _ _ _ Ec). rewrite <- segments_bounds by exact Va. f_equal. f_equal. f_equal. rewrite Ec, utf8_app, firstn_app, firstn_all, Nat.sub_diag, firstn_O, app_nil_r. reflexivity.
      + intros x. split; [intros [d ->]; split; [exists (d ++ [r] ++ b); rewrite Ec, <- app_assoc; reflexivity|intros I; apply N, in_or_app; auto]|]. intros [[d E] Nx]. destruct (Nat.le_gt_cases (length x) (length a)) as [Lx|Lx].
        * rewrite Ec in E. symmetry in E. destruct (prefix_split _ _ _ _ E Lx) as [y [-> _]]. exists y. reflexivity.
        * exfalso. rewrite Ec in E. destruct (prefix_split _ _ _ _ E ltac:(lia)) as [y [-> E2]]. destruct y as [|z y]; [rewrite app_nil_r in Lx; lia|]. cbn [app] in E2. injection E2 as <- _. apply Nx, in_or_app. right. left. reflexivity.
    - exists cs. split; [rewrite segments_bounds by exact Vc; reflexivity|]. intros b. split; [|tauto]. intros [d E]. split; [exists d; exact E|]. intros I. apply H. rewrite E. apply in_or_app. auto. }
  destruct X as [a [E Ha]]. apply exact_zero with (bounds 0 a); [exact E|apply bounds_ne| |apply bounds_sorted]. intros l. rewrite bounds_in. split.
  - intros [b [d [Eb ->]]]. destruct (proj1 (Ha b) (ex_intro _ d Eb)) as [[d' E'] F]. exists b, d'. rewrite no_occ. auto.
  - intros [b [d [Eb [-> F]]]]. rewrite no_occ in F. destruct (proj2 (Ha b) (conj (ex_intro _ d Eb) F)) as [d' E']. exists b, d'. auto.
Qed.
Lemma at_prefix a t b : cs = a ++ t ++ b -> skipn (length (utf8 a) + length (utf8 t)) (utf8 cs) = utf8 b.
Proof. intros ->. rewrite !utf8_app, <- app_length, app_assoc, skipn_app, skipn_all, Nat.sub_diag. reflexivity. Qed.
Lemma exact_prefix t : Forall valid_rune t -> exact (MPrefix (utf8 t)) (fun b => exists u, b = t ++ u).
Proof.
  intros Vt. pose proof (occ cs t Vc Vt) as H. unfold exact_index, Index. cbn [sem sIndex]. destruct (index_of _ _) as [i|].
  - destruct H as [a [b [Ec [-> F]]]]. rewrite (at_prefix a t b Ec). assert (Vb : Forall valid_rune b) by apply (valid_mid _ _ _ Ec). rewrite range_marks by exact Vb.
    pose proof (ends_bounds b Vb (length (utf8 t)) 0) as EB. rewrite Nat.add_0_r in EB. rewrite EB. exists a, (t ++ b). split; [exact Ec|]. split; [reflexivity|]. split; [apply bounds_ne|]. split; [|split; [apply bounds_sorted|]].
    + intros l. rewrite bounds_in. split.
      * intros [u [v [-> ->]]]. exists (t ++ u), v. split; [rewrite app_assoc; reflexivity|]. split; [rewrite utf8_app, app_length; lia|]. exists u. reflexivity.
      * intros [x [y [E [-> [u ->]]]]]. rewrite <- app_assoc in E. apply app_inv_head in E. exists u, y. split; [exact E|]. rewrite utf8_app, app_length. lia.
    + intros a' b' c' E' [u ->]. apply (F a' (u ++ c')). rewrite E', <- app_assoc. reflexivity.
  - intros a b c E [u ->]. apply (H a (u ++ c)). rewrite E, <- app_assoc. reflexivity.
Qed.
Lemma exact_prefix_any t e : Forall valid_rune t -> Forall valid_rune e -> length e <= 1 -> exact (MPrefixAny (utf8 t) e) (fun b => exists u, b = t ++ u /\ Forall (fun c => ~ In c e) u).
Proof.
  intros Vt Ve Le. pose proof (occ cs t Vc Vt) as H. unfold exact_index, Index. cbn [sem sIndex]. destruct (index_of _ _) as [i|].
  - destruct H as [a [b [Ec [-> F]]]]. cbv zeta. rewrite (at_prefix a t b Ec). assert (Vb : Forall valid_rune b) by apply (valid_mid _ _ _ Ec). destruct (seps_cut b e Vb Ve Le) as [d [Ed [Vd Hd]]]. rewrite Ed, range_marks by exact Vd.
    pose proof (ends_bounds d Vd (length (utf8 t)) 0) as EB. rewrite Nat.add_0_r in EB. rewrite EB. exists a, (t ++ b). split; [exact Ec|]. split; [reflexivity|]. split; [apply bounds_ne|]. split; [|split; [apply bounds_sorted|]].
    + intros l. rewrite bounds_in. split.
      * intros [u [v [E ->]]]. destruct (proj1 (Hd u) (ex_intro _ v E)) as [[w Ew] Fu]. exists (t ++ u), w. split; [rewrite <- app_assoc, <- Ew; reflexivity|]. split; [rewrite utf8_app, app_length; lia|]. exists u. auto.
      * intros [x [y [E [-> [u [-> Fu]]]]]]. rewrite <- app_assoc in E. apply app_inv_head in E. destruct (proj2 (Hd u) (conj (ex_intro _ y E) Fu)) as [w Ew]. exists u, w. split; [exact Ew|]. rewrite utf8_app, app_length. lia.
    + intros a' b' c' E' [u [-> _]]. apply (F a' (u ++ c')). rewrite E', <- app_assoc. reflexivity.
  - intros a b c E [u [-> _]]. apply (H a (u ++ c)). rewrite E, <- app_assoc. reflexivity.
Qed.
(** Suffixes: only the shortest. *)
Lemma shortest_suffix t : Forall valid_rune t -> shortest_index (MSuffix (utf8 t)) (fun b => exists u, b = u ++ t) cs.
Proof.
  intros Vt. pose proof (occ cs t Vc Vt) as H. unfold shortest_index, Index. cbn [sem sIndex]. destruct (index_of _ _) as [i|].
  - destruct H as [a [b [Ec [-> F]]]]. exists [], (a ++ t), b. split; [rewrite Ec, <- app_assoc; reflexivity|]. split; [reflexivity|]. split; [rewrite utf8_app, app_length; reflexivity|]. split; [exists a; reflexivity|]. split; [intros; cbn; lia|].
    intros b' c' E' [u ->]. assert (length a <= length u) by (apply (F u c'); rewrite Ec, app_assoc, E', <- app_assoc; reflexivity). rewrite !app_length. lia.
  - intros a b c E [u ->]. apply (H (a ++ u) c). rewrite E, <- !app_assoc. reflexivity.
Qed.
End Exact.
