(** * The slice operations of GlobMem.v in the logic of GlobMemLogic.v. *)
From Coq Require Import String.
From Coq Require Import ZArith Arith List Bool Lia.
From Verif Require Import Utf8 GoStr GlobMatch GlobUtil GlobUtilProps GlobMem GlobMemLogic.
Import ListNotations.
Open Scope nat_scope.
Open Scope prog_scope.

(** ** The pools cover every capacity *)
Lemma lor_neg v k : (v < 0)%Z -> (Z.lor v (Z.shiftr v k) < 0)%Z.
Proof. intros N. apply Z.lor_neg. left. exact N. Qed.
Lemma lor_small v k : (-1 <= v)%Z -> (0 <= k)%Z -> (-1 <= Z.lor v (Z.shiftr v k))%Z.
Proof.
  intros B K. destruct (Z.eq_dec v (-1)) as [->|N]; [rewrite Z.lor_m1_l; lia|]. assert (0 <= Z.lor v (Z.shiftr v k))%Z; [|lia].
  apply Z.lor_nonneg. split; [lia|]. apply Z.shiftr_nonneg. lia.
Qed.
Lemma wrap64_range x : (- 2 ^ 63 <= wrap64 x < 2 ^ 63)%Z.
Proof. unfold wrap64. pose proof (Z.mod_pos_bound (x + 2 ^ 63) (2 ^ 64) ltac:(lia)). lia. Qed.
Lemma table_wrap c : getTableIndex c = getTableIndex (wrap64 (c - 1) + 1).
Proof.
  unfold getTableIndex, toPowerOfTwo. replace (wrap64 (c - 1) + 1 - 1)%Z with (wrap64 (c - 1)) by lia. rewrite (wrap64_id (wrap64 (c - 1))) by apply wrap64_range. reflexivity.
Qed.
Lemma table_neg c : (- 2 ^ 63 <= c - 1 < 0)%Z -> getTableIndex c = 15%Z.
Proof.
  intros B. unfold getTableIndex, toPowerOfTwo. rewrite (wrap64_id (c - 1)) by lia. cbv zeta.
  set (v0 := (c - 1)%Z). assert (B0 : (v0 < 0)%Z) by (unfold v0; lia).
  set (v1 := Z.lor v0 (Z.shiftr v0 1)). pose proof (lor_neg v0 1 B0) as B1. fold v1 in B1.
  set (v2 := Z.lor v1 (Z.shiftr v1 2)). pose proof (lor_neg v1 2 B1) as B2. fold v2 in B2.
  set (v3 := Z.lor v2 (Z.shiftr v2 4)). pose proof (lor_neg v2 4 B2) as B3. fold v3 in B3.
  set (v4 := Z.lor v3 (Z.shiftr v3 8)). pose proof (lor_neg v3 8 B3) as B4. fold v4 in B4.
  set (v5 := Z.lor v4 (Z.shiftr v4 16)). pose proof (lor_neg v4 16 B4) as B5. fold v5 in B5.
  destruct (Z_lt_le_dec (v5 + 1) (- 2 ^ 63)) as [L|L].
  - exfalso. assert (X : (v0 <= v1)%Z /\ (v1 <= v2)%Z /\ (v2 <= v3)%Z /\ (v3 <= v4)%Z /\ (v4 <= v5)%Z).
    { assert (G : forall v k, (v < 0)%Z -> (v <= Z.lor v (Z.shiftr v k))%Z).
      { intros v k N. assert (E : (Z.lnot (Z.lor v (Z.shiftr v k)) <= Z.lnot v)%Z).
        { rewrite Z.lnot_lor. apply Z.ldiff_le; [unfold Z.lnot; lia|]. apply Z.bits_inj'. intros n _. rewrite Z.ldiff_spec, Z.land_spec, Z.bits_0. destruct (Z.testbit (Z.lnot v) n); [apply andb_false_r|reflexivity]. }
        unfold Z.lnot in E. lia. }
      repeat split; apply G; assumption. }
    unfold v0 in *. lia.
  - rewrite wrap64_id by lia. destruct (Z.leb_spec 1024 (v5 + 1)); [lia|]. destruct (Z.leb_spec (v5 + 1) 16); [reflexivity|lia].
Qed.
Lemma table_covers c : In (getTableIndex c) initialised.
Proof.
  rewrite table_wrap. pose proof (wrap64_range (c - 1)) as R. set (d := (wrap64 (c - 1) + 1)%Z) in *. assert (Rd : (- 2 ^ 63 <= d - 1 < 2 ^ 63)%Z) by (unfold d; lia). clearbody d. clear R c.
  destruct (Z_lt_le_dec d 1) as [L|L]; [rewrite table_neg by lia; rewrite initialised_eq; cbn; tauto|].
  destruct (Z_lt_le_dec d 16) as [L2|L2].
  - assert (E : getTableIndex d = 15%Z); [|rewrite E, initialised_eq; cbn; tauto].
    assert (Cs : In d (map Z.of_nat (seq 1 15))) by (apply in_map_iff; exists (Z.to_nat d); split; [lia|apply in_seq; lia]).
    clear - Cs. cbn [map seq In] in Cs. repeat (destruct Cs as [<-|Cs]; [vm_compute; reflexivity|]). destruct Cs.
  - destruct (Z.eq_dec d (2 ^ 63)) as [->|N]; [vm_compute; tauto|]. apply C57_pool_index. lia.
Qed.
Lemma acquire_total c : (0 <= c)%Z -> exists a, acquireSegments c = Some a /\ match a with Fresh n => n = c | Pooled i => In i initialised end.
Proof.
  intros B. unfold acquireSegments. destruct (c <? 16)%Z.
  - destruct (Z.ltb_spec c 0); [lia|]. exists (Fresh c). auto.
  - pose proof (table_covers c) as I. cbv zeta. assert (R : ((0 <=? getTableIndex c) && (getTableIndex c <? 1024))%Z = true).
    { pose proof I as J. rewrite initialised_eq in J. cbn [In] in J. destruct J as [<-|[<-|[<-|[<-|[<-|[<-|[<-|[]]]]]]]]; reflexivity. }
    rewrite R. replace (existsb (Z.eqb (getTableIndex c)) initialised) with true by (symmetry; apply existsb_exists; eexists; split; [exact I|apply Z.eqb_refl]). exists (Pooled (getTableIndex c)). auto.
Qed.
Lemma release_total c : exists r, releaseSegments c = Some r.
Proof.
  unfold releaseSegments. destruct (c <? 16)%Z; [eauto|]. pose proof (table_covers c) as I. cbv zeta.
  assert (R : ((0 <=? getTableIndex c) && (getTableIndex c <? 1024))%Z = true).
  { rewrite initialised_eq in I. cbn [In] in I. destruct I as [<-|[<-|[<-|[<-|[<-|[<-|[<-|[]]]]]]]]; reflexivity. }
  rewrite R. eauto.
Qed.

(** ** Heaps and slices *)
Definition ext (h h' : hp) : Prop := forall k a, h k = Some a -> h' k = Some a.
Definition dropS (h : hp) (sl : Slice) : hp := match sl with Sl (Dyn i) _ => hdrop h i | _ => h end.
Definition sep (h : hp) (sl : Slice) : Prop := match sl with Sl (Dyn i) _ => h i = None | _ => True end.
Definition owned (sl : Slice) : Prop := match sl with Sl (Static _) _ => False | _ => True end.
Definition holds (h : hp) (sl : Slice) (vs : list nat) : Prop :=
  match sl with
  | Nil => vs = []
  | Sl (Static m) n => n = 1 /\ vs = [m]
  | Sl (Dyn i) n => n = length vs /\ exists rest, h i = Some (vs ++ rest)
  end.
Lemma ext_refl h : ext h h.
Proof. intros k a E. exact E. Qed.
Lemma ext_trans h1 h2 h3 : ext h1 h2 -> ext h2 h3 -> ext h1 h3.
Proof. intros A B k a E. apply B, A, E. Qed.
Lemma holds_ext h h' sl vs : ext h h' -> holds h sl vs -> holds h' sl vs.
Proof. intros X. destruct sl as [|[m|i] n]; cbn; auto. intros [L [rest E]]. split; [exact L|]. exists rest. apply X, E. Qed.
Lemma ext_drop h sl : ext (dropS h sl) h.
Proof. destruct sl as [|[m|i] n]; cbn; try apply ext_refl. intros k a. unfold hdrop. destruct (k =? i); [discriminate|auto]. Qed.
Lemma sep_drop h sl : sep (dropS h sl) sl.
Proof. destruct sl as [|[m|i] n]; cbn; auto. apply hdrop_same. Qed.
Lemma sep_ext h h' sl : ext h h' -> sep h' sl -> sep h sl.
Proof. intros X. destruct sl as [|[m|i] n]; cbn; auto. intros E. destruct (h i) as [a|] eqn:F; [apply X in F; congruence|reflexivity]. Qed.
Lemma drop_above h0 h sl : ext h0 h -> sep h0 sl -> ext h0 (dropS h sl).
Proof.
  intros X P. destruct sl as [|[m|i] n]; cbn in *; auto. intros k a E. unfold hdrop. destruct (Nat.eqb_spec k i) as [->|N]; [congruence|apply X, E].
Qed.
(** Not the same array. *)
Definition apart (x y : Slice) : Prop := match x, y with Sl (Dyn i) _, Sl (Dyn j) _ => i <> j | _, _ => True end.
Lemma apart_sym x y : apart x y -> apart y x.
Proof. destruct x as [|[m|i] n], y as [|[m'|j] n']; cbn; auto. Qed.
Lemma held_apart h x vs y : holds h x vs -> sep h y -> apart x y.
Proof. destruct x as [|[m|i] n], y as [|[m'|j] n']; cbn; auto. intros [_ [rest E]] N ->. congruence. Qed.
Lemma holds_drop h x y vs : apart x y -> holds h x vs -> holds (dropS h y) x vs.
Proof.
  intros A. destruct x as [|[m|i] n]; cbn [holds]; auto. intros [L [rest E]]. split; [exact L|]. exists rest.
  destruct y as [|[m'|j] n']; cbn [dropS]; try exact E. cbn in A. rewrite hdrop_other by congruence. exact E.
Qed.
Lemma holds_cut h sl vs : owned sl -> holds h sl vs -> holds h (cut sl) [].
Proof. intros O. destruct sl as [|[m|i] n]; cbn in *; auto; [contradiction|]. intros [_ [rest E]]. split; [reflexivity|]. eauto. Qed.
Lemma sep_cut h sl : sep h sl -> sep h (cut sl).
Proof. destruct sl as [|[m|i] n]; cbn; auto. Qed.
Lemma owned_cut sl : owned sl -> owned (cut sl).
Proof. destruct sl as [|[m|i] n]; cbn; auto. Qed.
Lemma holds_len h sl vs : holds h sl vs -> slen sl = length vs.
Proof. destruct sl as [|[m|i] n]; cbn; [intros ->|intros [-> ->]|intros [-> _]]; reflexivity. Qed.
Lemma dropS_cut h sl : dropS h (cut sl) = dropS h sl.
Proof. destruct sl as [|[m|i] n]; reflexivity. Qed.

(** ** Operations *)
Lemma wp_pure {A} (o : option A) h (Q : option A -> hp -> Prop) : Q o h -> wp (pure o) h Q.
Proof. destruct o; cbn; auto. Qed.
Lemma acquire_ok c h (Q : option Slice -> hp -> Prop) : (0 <= c)%Z -> (forall h' sl, owned sl -> ext h h' -> sep h sl -> holds h' sl [] -> Q (Some sl) h') -> wp (acquire c) h Q.
Proof.
  intros B K. unfold acquire. destruct (acquire_total c B) as [a [E P]]. rewrite E. destruct a as [n|pool].
  - cbn [wp]. intros i rest N. apply K; cbn; auto.
    + intros k a F. rewrite hset_other by congruence. exact F.
    + split; [reflexivity|]. rewrite hset_same. eauto.
  - cbn [wp]. split; [exact P|]. intros i a N. apply K; cbn; auto.
    + intros k b F. rewrite hset_other by congruence. exact F.
    + split; [reflexivity|]. rewrite hset_same. eauto.
Qed.
Lemma release_ok h0 h sl vs (Q : option unit -> hp -> Prop) : ext h0 h -> sep h0 sl -> holds h sl vs -> (forall h', ext h0 h' -> Q (Some tt) h') -> wp (release sl) h Q.
Proof.
  intros X P Ho K. destruct sl as [|[m|i] n]; cbn [release wp].
  - apply K, X.
  - exists [m]. split; [reflexivity|]. cbn. apply K, X.
  - destruct Ho as [_ [rest E]]. exists (vs ++ rest). split; [exact E|]. destruct (release_total (Z.of_nat (length (vs ++ rest)))) as [r R]. rewrite R. destruct r as [pool|]; cbn [wp].
    + exists i, (vs ++ rest). split; [reflexivity|]. split; [exact E|]. apply K. intros k a F. cbn in P. rewrite hdrop_other by congruence. apply X, F.
    + apply K, X.
Qed.
Lemma one_ok v h (Q : option Slice -> hp -> Prop) : (forall h' sl, owned sl -> ext h h' -> sep h sl -> holds h' sl [v] -> Q (Some sl) h') -> wp (one v) h Q.
Proof.
  intros K. cbn [one wp]. intros i rest N. apply K; cbn; auto.
  - intros k a F. rewrite hset_other by congruence. exact F.
  - split; [reflexivity|]. rewrite hset_same. exists rest. reflexivity.
Qed.
Lemma for_slice_ok {T} sl vs (body : T -> nat -> prog T) (I : list nat -> T -> hp -> Prop) acc h (Q : option T -> hp -> Prop) :
  (forall d a h, I d a h -> holds h sl vs) -> I [] acc h ->
  (forall d v rest a h (Q : option T -> hp -> Prop), vs = d ++ v :: rest -> I d a h -> (forall a' h', I (d ++ [v]) a' h' -> Q (Some a') h') -> wp (body a v) h Q) ->
  (forall a h', I vs a h' -> Q (Some a) h') -> wp (for_slice sl body acc) h Q.
Proof.
  intros Ho I0 St K. destruct sl as [|b n]; cbn [for_slice].
  - pose proof (Ho _ _ _ I0) as E. cbn in E. subst vs. cbn [wp]. apply K, I0.
  - assert (G : forall n d rest acc h, vs = d ++ rest -> n = length rest -> I d acc h -> wp (for_from b (length d) n body acc) h Q).
    { induction n0 as [|n0 IH]; intros d rest a h1 E L Ia; destruct rest as [|v rest]; cbn in L; try lia.
      - cbn. rewrite app_nil_r in E. subst d. apply K, Ia.
      - cbn [for_from wp]. pose proof (Ho _ _ _ Ia) as H1.
        assert (X : exists arr, look h1 b = Some arr /\ nth_error arr (length d) = Some v).
        { destruct b as [m|i]; cbn [holds look] in *.
          - destruct H1 as [-> H1]. exists [m]. split; [reflexivity|]. rewrite E in H1. destruct d as [|x [|y d]]; cbn in H1; try discriminate. injection H1 as -> _. reflexivity.
          - destruct H1 as [_ [more F]]. eexists. split; [exact F|]. rewrite E, <- app_assoc. rewrite nth_error_app2, Nat.sub_diag by lia. reflexivity. }
        destruct X as [arr [F1 F2]]. exists arr, v. split; [exact F1|]. split; [exact F2|]. apply wp_bind. eapply St; [exact E|exact Ia|]. intros a' h' Ia'.
        replace (S (length d)) with (length (d ++ [v])) by (rewrite app_length; cbn; lia). apply (IH _ rest); [rewrite <- app_assoc; exact E|lia|exact Ia']. }
    apply (G n [] vs acc h eq_refl); [|exact I0]. pose proof (holds_len _ _ _ (Ho _ _ _ I0)) as L. exact L.
Qed.
Lemma contents_ok sl vs h (Q : option (list nat) -> hp -> Prop) : holds h sl vs -> Q (Some vs) h -> wp (contents sl) h Q.
Proof.
  intros Ho K. unfold contents. apply (for_slice_ok sl vs _ (fun d a h' => a = d /\ h' = h)).
  - intros d a h' [_ ->]. exact Ho.
  - auto.
  - intros d v rest a h' Q' E [-> ->] K'. cbn [wp]. apply K'. auto.
  - intros a h' [-> ->]. exact K.
Qed.
Lemma upd_app (l : list nat) v x r : upd (l ++ x :: r) (length l) v = (l ++ [v]) ++ r.
Proof. induction l as [|y l IH]; cbn; [reflexivity|]. rewrite IH. reflexivity. Qed.
Lemma write_ok h0 i : forall vs h cur rest (Q : option unit -> hp -> Prop), ext h0 h -> h0 i = None -> h i = Some (cur ++ rest) -> length vs <= length rest ->
  (forall h' rest', ext h0 h' -> h' i = Some ((cur ++ vs) ++ rest') -> Q (Some tt) h') -> wp (write_from (Dyn i) (length cur) vs) h Q.
Proof.
  induction vs as [|v vs IH]; intros h cur rest Q X N E L K; cbn [write_from wp].
  - apply (K h rest X). rewrite app_nil_r. exact E.
  - destruct rest as [|x rest]; cbn in L; [lia|]. exists i, (cur ++ x :: rest). split; [reflexivity|]. split; [exact E|]. split; [rewrite app_length; cbn; lia|].
    rewrite upd_app. replace (S (length cur)) with (length (cur ++ [v])) by (rewrite app_length; cbn; lia). apply (IH _ _ rest).
    + intros k a F. rewrite hset_other by congruence. apply X, F.
    + exact N.
    + apply hset_same.
    + lia.
    + intros h' rest' X' E'. rewrite <- (app_assoc cur) in E'. exact (K h' rest' X' E').
Qed.
Lemma append_ok h0 h sl cur vs (Q : option Slice -> hp -> Prop) : owned sl -> ext h0 h -> sep h0 sl -> holds h sl cur ->
  (forall h' sl', owned sl' -> ext h0 h' -> sep h0 sl' -> holds h' sl' (cur ++ vs) -> Q (Some sl') h') -> wp (append sl vs) h Q.
Proof.
  intros O X P Ho K. destruct sl as [|[m|i] n]; [|destruct O|].
  - cbn in Ho. subst cur. cbn [append]. destruct (Nat.eqb_spec (length vs) 0) as [Z|Z].
    + destruct vs; [|discriminate]. cbn. apply K; cbn; auto.
    + cbn [wp]. intros i rest N. apply K; cbn; auto.
      * intros k a F. rewrite hset_other; [apply X, F|]. intros ->. apply X in F. congruence.
      * destruct (h0 i) as [a|] eqn:F; [apply X in F; congruence|reflexivity].
      * split; [reflexivity|]. rewrite hset_same. eauto.
  - pose proof Ho as Ho'. destruct Ho as [L [rest E]]. cbn in P. subst n. cbn [append wp]. exists (cur ++ rest). split; [exact E|]. rewrite app_length.
    destruct (Nat.leb_spec (length cur + length vs) (length cur + length rest)) as [Le|Gt].
    + apply wp_bind. apply (write_ok h0 i vs h cur rest); [exact X|exact P|exact E|lia|]. intros h' rest' X' E'. cbn [wp]. apply K; cbn; auto. split; [rewrite app_length; reflexivity|eauto].
    + apply wp_bind. apply (contents_ok _ cur); [exact Ho'|]. cbn [wp]. intros j rest' N. apply K; cbn; auto.
      * intros k a F. rewrite hset_other; [apply X, F|]. intros ->. apply X in F. congruence.
      * destruct (h0 j) as [a|] eqn:F; [apply X in F; congruence|reflexivity].
      * split; [rewrite app_length; reflexivity|]. rewrite hset_same. eauto.
Qed.
Lemma append_each_ok h0 : forall vs h sl cur (Q : option Slice -> hp -> Prop), owned sl -> ext h0 h -> sep h0 sl -> holds h sl cur ->
  (forall h' sl', owned sl' -> ext h0 h' -> sep h0 sl' -> holds h' sl' (cur ++ vs) -> Q (Some sl') h') -> wp (append_each sl vs) h Q.
Proof.
  induction vs as [|v vs IH]; intros h sl cur Q O X P Ho K; cbn [append_each].
  - cbn [wp]. apply K; auto. rewrite app_nil_r. exact Ho.
  - apply wp_bind. apply (append_ok h0 h sl cur [v]); auto. intros h' sl' O' X' P' H'. apply (IH h' sl' (cur ++ [v])); auto. intros h2 sl2 O2 X2 P2 H2. apply K; auto. rewrite <- app_assoc in H2. exact H2.
Qed.
(** sl[:0] filled with vs. *)
Lemma refill_ok h0 h sl cur vs (Q : option Slice -> hp -> Prop) : owned sl -> ext h0 h -> sep h0 sl -> holds h sl cur ->
  (forall h' sl', owned sl' -> ext h0 h' -> sep h0 sl' -> holds h' sl' vs -> Q (Some sl') h') -> wp (append (cut sl) vs) h Q.
Proof.
  intros O X P Ho K. apply (append_ok h0 h (cut sl) [] vs); [apply owned_cut, O|exact X|apply sep_cut, P|exact (holds_cut h sl cur O Ho)|exact K].
Qed.
Lemma merge_ok h0 h sl cur seg vs (Q : option Slice -> hp -> Prop) : owned sl -> ext h0 h -> sep h0 sl -> holds h sl cur -> holds h seg vs ->
  (forall h' sl', owned sl' -> ext h0 h' -> sep h0 sl' -> holds h' sl' (merge cur vs) -> Q (Some sl') h') -> wp (append_merge sl seg) h Q.
Proof.
  intros O X P Ho Hs K. unfold append_merge. apply wp_bind. apply (contents_ok _ cur _ _ Ho). apply wp_bind. apply (contents_ok _ vs _ _ Hs). apply (refill_ok h0 h sl cur); auto.
Qed.
(** reverseSegments. *)
Lemma nth_error_pre (l r : list nat) i : i < length l -> nth_error (l ++ r) i = Some (nth i l 0).
Proof. intros L. rewrite nth_error_app1 by lia. apply nth_error_nth'. lia. Qed.
Lemma upd_pre (r : list nat) v : forall l i, i < length l -> upd (l ++ r) i v = upd l i v ++ r.
Proof. induction l as [|y l IH]; intros i L; cbn in L; [lia|]. destruct i; cbn; [reflexivity|]. rewrite IH by lia. reflexivity. Qed.
Lemma reverse_loop_ok h0 j : forall n i l rest h (Q : option unit -> hp -> Prop), ext h0 h -> h0 j = None -> h j = Some (l ++ rest) -> i + n <= length l ->
  (forall h', ext h0 h' -> h' j = Some (rev_loop n i l ++ rest) -> Q (Some tt) h') -> wp (reverse_loop (Dyn j) (length l) n i) h Q.
Proof.
  induction n as [|n IH]; intros i l rest h Q X N E B K; cbn [reverse_loop wp rev_loop] in *.
  - apply K; auto.
  - exists (l ++ rest), (nth (length l - i - 1) l 0). split; [exact E|]. split; [apply nth_error_pre; lia|].
    exists (l ++ rest), (nth i l 0). split; [exact E|]. split; [apply nth_error_pre; lia|].
    exists j, (l ++ rest). split; [reflexivity|]. split; [exact E|]. split; [rewrite app_length; lia|]. rewrite upd_pre by lia.
    exists j, (upd l i (nth (length l - i - 1) l 0) ++ rest). split; [reflexivity|]. split; [apply hset_same|]. split; [rewrite app_length, upd_length; lia|]. rewrite upd_pre by (rewrite upd_length; lia).
    set (l' := upd (upd l i (nth (length l - i - 1) l 0)) (length l - i - 1) (nth i l 0)) in *. assert (L' : length l' = length l) by (unfold l'; rewrite !upd_length; reflexivity).
    rewrite <- L'. apply (IH _ _ rest).
    + intros k a F. rewrite !hset_other by congruence. apply X, F.
    + exact N.
    + apply hset_same.
    + lia.
    + intros h' X' E'. apply K; auto.
Qed.
Lemma reverse_ok h0 h sl vs (Q : option unit -> hp -> Prop) : owned sl -> ext h0 h -> sep h0 sl -> holds h sl vs -> (forall h', ext h0 h' -> holds h' sl (rev vs) -> Q (Some tt) h') -> wp (reverse sl) h Q.
Proof.
  intros O X P Ho K. destruct sl as [|[m|i] n]; [|destruct O|].
  - cbn in *. subst vs. apply K; auto.
  - destruct Ho as [L [rest E]]. subst n. cbn [reverse]. pose proof (Nat.div_mod (length vs) 2 ltac:(lia)). pose proof (Nat.mod_upper_bound (length vs) 2 ltac:(lia)).
    apply (reverse_loop_ok h0 i _ 0 vs rest h); [exact X|exact P|exact E|lia|]. intros h' X' E'. apply K; [exact X'|]. fold (reverseSegments vs) in E'. rewrite C48_reverse in E'. cbn. split; [symmetry; apply rev_length|eauto].
Qed.
