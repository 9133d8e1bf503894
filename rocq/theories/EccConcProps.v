(** * C80: RSEncoders shared by goroutines. *)
From Coq Require Import NArith ZArith Arith List Bool Lia.
From Verif Require Import Gf256Model Gf256Spec Gf256Proofs RsProofs Gf256Props EccConc EccConcProofs.
Import ListNotations.
Open Scope nat_scope.

(** ** Specification *)
(** An encoder with the field and the number of check bytes it was made with (NewRSEncoder), used before or not. *)
Definition made (f : Field) (c : nat) (e : enc) : Prop := e_f e = f /\ e_c e = c /\ e_lgen e = rs_lgen (NewRSEncoder f c).
(** No call is under way: every encoder has no buffer or one of its own, of the length it says. *)
Definition in_order (w : world) : Prop :=
  (forall e, match e_ptr (encs w e) with None => e_len (encs w e) = 0 | Some a => exists buf, nth_error (arrays w) a = Some buf /\ length buf = e_len (encs w e) end)
  /\ (forall e e' a, e_ptr (encs w e) = Some a -> e_ptr (encs w e') = Some a -> e = e').
(** ch is what check holds after a call that was alone: the check bytes a new encoder gives, and beyond them zeros and what was there before. *)
Definition as_alone (f : Field) (c : nat) (dat chk ch : list N) : Prop :=
  exists ch0 rs0 n, ECC (NewRSEncoder f c) dat chk = Some (ch0, rs0) /\ firstn c ch = firstn c ch0 /\ length ch = length chk /\ skipn c ch = repeat 0%N n ++ skipn n (skipn c chk).
(** The bytes a call needs in the buffer. *)
Definition needs (w : world) (k : call) : nat := length (data k) + e_c (encs w (on k)).
Definition no_wild (calls : list call) (T : nat -> prog) : Prop := forall j kj, nth_error calls j = Some kj -> T j <> Wild.
(** The call has returned with an answer in R, or it can go on. *)
Definition goes_well (calls : list call) (w : world) (T : nat -> prog) (i : nat) (R : list N -> Prop) : Prop :=
  (exists ch, T i = Done ch /\ R ch) \/ (exists k w' p', nth_error calls i = Some k /\ act (on k) w (T i) w' p' /\ p' <> Wild /\ p' <> Crash).

(** ** Proofs *)
Lemma skip_skip {A} (l : list A) : forall a b, skipn a (skipn b l) = skipn (b + a) l.
Proof. induction l as [|x l IH]; intros a [|b]; cbn; try reflexivity; [destruct a; reflexivity|apply IH]. Qed.
Lemma alone_copy poly alpha f c dat chk L : NewField poly alpha = Some f -> 1 <= c -> c <= length chk -> length dat + c <= L ->
  as_alone f c dat chk (copy chk (skipn (length dat) (ecc_outer f (tl (lgen f c)) (length dat) (dat ++ repeat 0%N (L - length dat))))).
Proof.
  intros E Hc Lc HL. apply NewField_good in E. destruct E as [G _].
  set (rs := {| rs_f := f; rs_c := c; rs_gen := gen f c; rs_lgen := lgen f c; rs_p := repeat 0%N L |}).
  pose proof (ECC_spec f _ _ G c rs dat chk ltac:(repeat split)) as H1. pose proof (ECC_spec f _ _ G c (NewRSEncoder f c) dat chk ltac:(repeat split)) as H2.
  destruct (Nat.ltb_spec (length chk) c); [lia|]. destruct H1 as [rs1 [k1 [_ H1]]]. destruct H2 as [rs2 [k2 [_ H2]]]. unfold ECC in H1. unfold rs in H1. cbn [rs_f rs_c rs_lgen rs_p rs_gen] in H1.
  destruct (Nat.ltb_spec (length chk) c); [lia|]. destruct (Nat.eqb_spec c 0); [lia|]. rewrite repeat_length in H1. destruct (Nat.leb_spec (length dat + c) L); [|lia]. rewrite repeat_length in H1. injection H1 as H1 _. rewrite H1.
  pose proof (rem_length f _ _ G c dat) as Lr. assert (Fc : forall k, firstn c (copy chk (rem f c dat ++ repeat 0%N k)) = rem f c dat).
  { intros k. unfold copy. rewrite firstn_app, firstn_firstn, Nat.min_l by lia. rewrite firstn_length, app_length, Lr, repeat_length. replace (c - Nat.min (length chk) (c + k)) with 0 by lia. rewrite firstn_O, app_nil_r. rewrite firstn_app, Lr, Nat.sub_diag, firstn_O, app_nil_r. apply firstn_all2. lia. }
  exists (copy chk (rem f c dat ++ repeat 0%N k2)), rs2, (Nat.min (length chk - c) k1). split; [exact H2|]. split; [rewrite !Fc; reflexivity|]. unfold copy. split.
  - rewrite app_length, firstn_length, skipn_length, app_length, Lr, repeat_length. lia.
  - rewrite (app_length (rem f c dat)), Lr, repeat_length. rewrite skipn_app, firstn_length, app_length, Lr, repeat_length. rewrite firstn_app, Lr, (firstn_all2 (rem f c dat)) by lia. rewrite skipn_app, Lr, Nat.sub_diag, skipn_O, (skipn_all2 (rem f c dat)) by lia. cbn [app].
    assert (Fr : forall m n, firstn m (repeat 0%N n) = repeat 0%N (Nat.min m n)) by (induction m as [|m IH]; intros [|n']; cbn; try reflexivity; f_equal; apply IH). rewrite Fr. f_equal.
    replace (c - Nat.min (length chk) (c + k1)) with 0 by lia. rewrite skipn_O. rewrite skip_skip. destruct (Nat.le_gt_cases k1 (length chk - c)); [rewrite Nat.min_r by lia; f_equal; lia|]. rewrite !skipn_all2 by lia. reflexivity.
Qed.
Lemma lgen_length poly alpha f c : NewField poly alpha = Some f -> length (lgen f c) = S c.
Proof. intros E. apply NewField_good in E. destruct E as [G _]. destruct (gen_shape f _ _ G c) as [g [Eg [Lg _]]]. unfold lgen. rewrite map_length, Eg. cbn. lia. Qed.
Lemma zero_alone f c dat chk : c = 0 -> as_alone f c dat chk chk.
Proof. intros ->. exists chk, (NewRSEncoder f 0), 0. unfold ECC. cbn. auto. Qed.
Lemma order_fresh calls w : in_order w -> fresh_ok calls w (started calls w).
Proof.
  intros [O _]. split.
  - intros j kj b Hj _. unfold started. rewrite Hj. apply ecc_avoids.
  - intros e b E. specialize (O e). rewrite E in O. destruct O as [buf [H _]]. apply nth_error_Some. congruence.
Qed.
Lemma stage_well calls i k R Lp Pp use w T : nth_error calls i = Some k -> fresh_ok calls w T -> stage calls i k R Lp Pp use w T -> goes_well calls w T i R.
Proof.
  intros Hi F Hs. assert (X : (exists ch, T i = Done ch /\ R ch) \/ exists w' p', act (on k) w (T i) w' p').
  { destruct Hs as [H|[[a [buf [Hb [G _]]]]|[B [_ [_ [HU _]]]]]].
    - inversion H as [ch Hr E|n q Hq E|a q Hq E|p q Hp Hq E]; rewrite <- E in *; [left; eauto|right; do 2 eexists; constructor..].
    - inversion G as [q b0 H E|j q b0 v Hv G' E|j v q b0 Hj G' E]; subst.
      + inversion H as [ch Hr E|n q Hq E|a' q Hq E|p q Hp Hq E]; rewrite <- E in *; [left; eauto|right; do 2 eexists; constructor..].
      + right. do 2 eexists. eapply a_load; eassumption.
      + right. do 2 eexists. eapply a_save; eassumption.
    - inversion B as [q H E|q H E|p q H1 H2 E|n q H E|a buf p Eu G E|p H E]; try (rewrite <- E in *); try (right; do 2 eexists; constructor; fail).
      + destruct (HU _ _ Eu) as [Hb _]. inversion G as [q b0 H E'|j q b0 v Hv G' E'|j v q b0 Hj G' E']; subst p buf.
        * inversion H as [ch Hr E2|n q2 Hq E2|a' q2 Hq E2|p q2 Hp Hq E2]; [left; eauto|right; do 2 eexists; constructor..].
        * right. do 2 eexists. eapply a_load; eassumption.
        * right. do 2 eexists. eapply a_save; eassumption.
      + inversion H as [ch Hr E2|n q Hq E2|a q Hq E2|p0 q Hp Hq E2]; [left; eauto|right; do 2 eexists; constructor..]. }
  destruct X as [X|[w' [p' A]]]; [left; exact X|right]. exists k, w', p'. split; [exact Hi|]. split; [exact A|].
  pose proof (own_step calls i k R Lp Pp use w T w' p' F Hs A) as Hs'. apply stage_fine in Hs'. rewrite put_same in Hs'. exact Hs'.
Qed.
(** A call that makes its buffer. *)
Lemma begins_make poly alpha f c dat chk (Lp : nat -> Prop) (Pp : option nat -> Prop) use : NewField poly alpha = Some f -> c <= length chk -> (forall l, Lp l -> l < length dat + c) -> begins (as_alone f c dat chk) Lp Pp use (ecc f c (lgen f c) dat chk).
Proof.
  intros E Hc HL. unfold ecc. destruct (Nat.ltb_spec (length chk) c); [lia|]. destruct (Nat.eqb_spec c 0); [apply be_end; constructor; apply zero_alone; assumption|]. constructor. intros l Hl. specialize (HL l Hl). destruct (Nat.leb_spec (length dat + c) l); [lia|].
  constructor. intros a. pose proof (lgen_length _ _ _ c E) as Ll. apply gives_divide; [apply repeat_length|destruct (lgen f c); cbn in *; lia|]. eapply alone_copy; try eassumption; lia.
Qed.
(** A call on an encoder that nobody else uses. *)
Lemma begins_own poly alpha f c dat chk w e : NewField poly alpha = Some f -> c <= length chk -> in_order w ->
  begins (as_alone f c dat chk) (fun l => l = e_len (encs w e)) (fun o => o = e_ptr (encs w e)) (match e_ptr (encs w e) with Some a => Some (a, nth a (arrays w) []) | None => None end) (ecc f c (lgen f c) dat chk).
Proof.
  intros E Hc [O _]. specialize (O e). destruct (Nat.le_gt_cases (length dat + c) (e_len (encs w e))) as [Ln|Ln]; [|eapply begins_make; try eassumption; intros l ->; exact Ln].
  unfold ecc. destruct (Nat.ltb_spec (length chk) c); [lia|]. destruct (Nat.eqb_spec c 0); [apply be_end; constructor; apply zero_alone; assumption|]. constructor. intros l ->. destruct (Nat.leb_spec (length dat + c) (e_len (encs w e))); [|lia].
  destruct (e_ptr (encs w e)) as [a|]; [|lia]. destruct O as [buf [Hb Lb]].
  assert (D : begins (as_alone f c dat chk) (fun l => l = e_len (encs w e)) (fun o => o = Some a) (Some (a, nth a (arrays w) [])) (divide f (lgen f c) dat chk (Some a, e_len (encs w e)))).
  { rewrite (nth_error_nth _ _ [] Hb). eapply be_use; [reflexivity|]. pose proof (lgen_length _ _ _ c E) as Ll. apply gives_divide; [exact Lb|destruct (lgen f c); cbn in *; lia|]. eapply alone_copy; try eassumption; lia. }
  unfold fetch. constructor; constructor; intros ? ->; constructor; intros ? ->; exact D.
Qed.
Lemma own_stage calls w i k poly alpha f : NewField poly alpha = Some f -> in_order w -> nth_error calls i = Some k -> made f (e_c (encs w (on k))) (encs w (on k)) -> e_c (encs w (on k)) <= length (check k) ->
  (forall j kj, nth_error calls j = Some kj -> on kj = on k -> j = i) ->
  stage calls i k (as_alone f (e_c (encs w (on k))) (data k) (check k)) (fun l => l = e_len (encs w (on k))) (fun o => o = e_ptr (encs w (on k))) (match e_ptr (encs w (on k)) with Some a => Some (a, nth a (arrays w) []) | None => None end) w (started calls w).
Proof.
  intros E O Hi [M1 [_ M2]] Hc Only. right. right. unfold started at 1. rewrite Hi. cbn zeta. rewrite M1, M2. split; [eapply begins_own; eassumption|]. split; [reflexivity|]. split; [reflexivity|]. split; [|intros j kj Ne Hj Eo; exfalso; apply Ne; eapply Only; eassumption].
  intros a buf. destruct O as [O1 O2]. pose proof (O1 (on k)) as O. destruct (e_ptr (encs w (on k))) as [a'|] eqn:Ep; [|discriminate]. intros X. injection X as -> <-. destruct O as [buf [Hb _]]. split; [rewrite (nth_error_nth _ _ [] Hb); exact Hb|].
  intros j kj Ne Hj. split; [unfold started; rewrite Hj; apply ecc_avoids|]. intros Ep'. apply Ne. eapply Only; [exact Hj|]. eapply O2; eassumption.
Qed.

(** ** Theorems *)
(** The only call on its encoder: as if alone, whatever the other calls do to their encoders. *)
Theorem C80_apart poly alpha f calls w w' T' i k : NewField poly alpha = Some f -> in_order w -> nth_error calls i = Some k -> made f (e_c (encs w (on k))) (encs w (on k)) ->
  e_c (encs w (on k)) <= length (check k) -> (forall j kj, nth_error calls j = Some kj -> on kj = on k -> j = i) -> reached calls w w' T' -> no_wild calls T' ->
  goes_well calls w' T' i (as_alone f (e_c (encs w (on k))) (data k) (check k)).
Proof.
  intros E O Hi M Hc Only [n R] NW. pose proof (own_stage calls w i k poly alpha f E O Hi M Hc Only) as St0. destruct (stage_reached calls i k Hi _ _ _ _ _ _ _ _ _ (order_fresh calls w O) St0 R NW) as [F St]. eapply stage_well; eassumption.
Qed.
(** Every call on an encoder of its own: nothing goes wrong at all. *)
Theorem C80_separate poly alpha f calls w w' T' : NewField poly alpha = Some f -> in_order w ->
  (forall i k, nth_error calls i = Some k -> made f (e_c (encs w (on k))) (encs w (on k)) /\ e_c (encs w (on k)) <= length (check k)) ->
  (forall i j k kj, nth_error calls i = Some k -> nth_error calls j = Some kj -> on kj = on k -> j = i) -> reached calls w w' T' ->
  no_wild calls T' /\ forall i k, nth_error calls i = Some k -> goes_well calls w' T' i (as_alone f (e_c (encs w (on k))) (data k) (check k)).
Proof.
  intros E O M Only R. assert (NW : no_wild calls T').
  { destruct R as [n R]. remember (w, started calls w) as s0 eqn:E0. remember (w', T') as s1 eqn:E1. revert w' T' E1. induction R as [s|n s s1 s2 H IH St]; intros w' T' E1; subst s.
    - injection E1 as <- <-. intros j kj Hj. destruct (M j kj Hj) as [Mj Hc]. eapply proj1, stage_fine, own_stage; eauto.
    - destruct St as [w1 T1 j kj w2 p' Hj A]. injection E1 as <- <-. pose proof (IH eq_refl w1 T1 eq_refl) as NW1. intros j' kj' Hj'. destruct (Nat.eq_dec j' j) as [->|Ne]; [|rewrite put_other by exact Ne; exact (NW1 j' kj' Hj')].
      destruct (M j kj Hj) as [Mj Hc]. pose proof (own_stage calls w j kj poly alpha f E O Hj Mj Hc (fun a b h1 h2 => Only j a kj b Hj h1 h2)) as St0.
      destruct (stage_reached calls j kj Hj _ _ _ _ _ _ _ _ _ (order_fresh calls w O) St0 H NW1) as [F St]. pose proof (own_step calls j kj _ _ _ _ _ _ _ _ F St A) as St'. exact (proj1 (stage_fine _ _ _ _ _ _ _ _ _ St')). }
  split; [exact NW|]. intros i k Hi. destruct (M i k Hi) as [Mi Hc]. eapply C80_apart; try eassumption. intros j kj Hj Eo. eapply (Only i j); eauto.
Qed.
(** A call with more data than every other call on the encoder, before or at the same time: as if alone. *)
Theorem C80_largest poly alpha f calls w w' T' i k : NewField poly alpha = Some f -> in_order w -> nth_error calls i = Some k -> made f (e_c (encs w (on k))) (encs w (on k)) ->
  e_c (encs w (on k)) <= length (check k) -> e_len (encs w (on k)) < needs w k -> (forall j kj, j <> i -> nth_error calls j = Some kj -> on kj = on k -> length (data kj) < length (data k)) ->
  reached calls w w' T' -> no_wild calls T' -> goes_well calls w' T' i (as_alone f (e_c (encs w (on k))) (data k) (check k)).
Proof.
  intros E O Hi [M1 [_ M2]] Hc Small Less [n R] NW. set (Lp := fun l => l < needs w k).
  assert (St0 : stage calls i k (as_alone f (e_c (encs w (on k))) (data k) (check k)) Lp (fun _ => True) None w (started calls w)).
  { right. right. unfold started at 1. rewrite Hi. cbn zeta. rewrite M1, M2. split; [eapply begins_make; try eassumption; intros l Hl; exact Hl|]. split; [exact Small|]. split; [exact I|]. split; [discriminate|].
    intros j kj Ne Hj Eo. unfold started. rewrite Hj. cbn zeta. apply ecc_keeps; [|auto]. unfold Lp, needs. rewrite Eo. specialize (Less j kj Ne Hj Eo). lia. }
  destruct (stage_reached calls i k Hi _ _ _ _ _ _ _ _ _ (order_fresh calls w O) St0 R NW) as [F St]. eapply stage_well; eassumption.
Qed.
Lemma no_wild_before calls n s w' T' : xsteps calls n s (w', T') -> no_wild calls T' -> no_wild calls (snd s).
Proof.
  intros H. remember (w', T') as s1 eqn:E1. revert w' T' E1. induction H as [s|n s s1 s2 H IH St]; intros w' T' E1 NW; [subst; exact NW|]. destruct St as [w1 T1 j kj w2 p' Hj A]. injection E1 as <- <-. apply (IH w1 T1 eq_refl).
  intros j' kj' Hj' E. destruct (Nat.eq_dec j' j) as [->|Nj]; [rewrite E in A; inversion A|apply (NW j' kj' Hj'); rewrite put_other by exact Nj; exact E].
Qed.
(** A call that finds the buffer too small when it begins: as if alone, whoever uses the encoder then or later. *)
Theorem C80_own_buffer poly alpha f calls w w1 T1 w2 p2 n w' T' i k : NewField poly alpha = Some f -> in_order w -> nth_error calls i = Some k -> made f (e_c (encs w (on k))) (encs w (on k)) ->
  e_c (encs w (on k)) <= length (check k) -> reached calls w w1 T1 -> T1 i = started calls w i -> e_len (encs w1 (on k)) < needs w k -> act (on k) w1 (T1 i) w2 p2 ->
  xsteps calls n (w2, put T1 i p2) (w', T') -> no_wild calls T' -> goes_well calls w' T' i (as_alone f (e_c (encs w (on k))) (data k) (check k)).
Proof.
  intros E O Hi [M1 [_ M2]] Hc [n1 R1] Ei Small A R NW. pose proof (no_wild_before _ _ _ _ _ R NW) as NW2. cbn [snd] in NW2.
  assert (N2 : p2 <> Wild) by (specialize (NW2 i k Hi); rewrite put_same in NW2; exact NW2).
  assert (NW1 : no_wild calls T1) by (intros j kj Hj Ej; destruct (Nat.eq_dec j i) as [->|Nj]; [rewrite Ej in A; inversion A|apply (NW2 j kj Hj); rewrite put_other by exact Nj; exact Ej]).
  assert (F1 : fresh_ok calls w1 T1).
  { clear - O R1 NW1. remember (w, started calls w) as s0 eqn:E0. remember (w1, T1) as s1 eqn:E1. revert w1 T1 E1 NW1. induction R1 as [s|n s s1 s2 H IH St]; intros w1 T1 E1 NW; subst s; [injection E1 as <- <-; apply order_fresh; exact O|].
    destruct St as [w3 T3 j kj w4 p' Hj A]. injection E1 as <- <-. assert (N : p' <> Wild) by (specialize (NW j kj Hj); rewrite put_same in NW; exact NW). pose proof (no_wild_before calls 1 (w3, T3) w4 _ (xs_more _ _ _ _ _ (xs_none _ _) (x_step _ _ _ _ _ _ _ Hj A)) NW) as NW3. exact (fresh_step calls _ _ _ _ _ _ (IH eq_refl w3 T3 eq_refl NW3) Hj A N). }
  pose proof (fresh_step calls _ _ _ _ _ _ F1 Hi A N2) as F2.
  assert (St0 : stage calls i k (as_alone f (e_c (encs w (on k))) (data k) (check k)) (fun _ => True) (fun _ => True) None w2 (put T1 i p2)).
  { unfold stage. rewrite put_same. rewrite Ei in A. unfold started in A. rewrite Hi in A. cbn zeta in A. rewrite M1, M2 in A.
    pose proof (begins_make poly alpha f _ (data k) (check k) (fun l => l = e_len (encs w1 (on k))) (fun _ => True) None E Hc ltac:(intros l ->; exact Small)) as B.
    assert (K : forall p, keeps (fun _ => True) (fun _ => True) p) by (induction p; cbn; auto).
    unfold ecc in A, B. destruct (_ <? _); [inversion A|]. destruct (_ =? 0); [inversion A|]. inversion A; subst w2 p2. unfold needs in Small. destruct (Nat.leb_spec (length (data k) + e_c (encs w (on k))) (e_len (encs w1 (on k)))); [lia|].
    right. right. split; [|repeat split; auto; discriminate]. inversion B as [q B0 Eq| | | |a buf p Eu|p B0 Eq]; [|discriminate|inversion B0]. specialize (B0 _ eq_refl). cbn beta in B0. destruct (Nat.leb_spec (length (data k) + e_c (encs w (on k))) (e_len (encs w1 (on k)))); [lia|].
    inversion B0 as [| | |n0 q0 B1 Eq1|a buf p Eu|p B1 Eq1]; [|discriminate|inversion B1]. constructor. exact B1. }
  destruct (stage_reached calls i k Hi _ _ _ _ _ _ _ _ _ F2 St0 R NW) as [F St]. eapply stage_well; eassumption.
Qed.

(** *** A buffer that is long enough *)
Definition cost (w : world) (k : call) : nat := e_len (encs w (on k)) + length (data k) * (2 * e_c (encs w (on k)) + 1) + length (check k) + 7.
Fixpoint total (b : nat -> nat) (m : nat) : nat := match m with 0 => 0 | S j => total b j + b j end.
Lemma total_put b i x : forall m, i < m -> total (put b i x) m + b i = total b m + x.
Proof.
  assert (Same : forall m, m <= i -> total (put b i x) m = total b m) by (induction m as [|m IH]; intros L; [reflexivity|]; cbn [total]; rewrite IH, put_other by lia; reflexivity).
  induction m as [|m IH]; intros L; [lia|]. cbn [total]. destruct (Nat.eq_dec i m) as [->|N]; [rewrite Same, put_same by lia; lia|]. rewrite (put_other _ _ m) by auto. specialize (IH ltac:(lia)). lia.
Qed.
Lemma total_calls (g : call -> nat) : forall calls b, (forall i k, nth_error calls i = Some k -> b i = g k) -> total b (length calls) = list_sum (map g calls).
Proof.
  intros calls. induction calls as [|k calls IH] using rev_ind; intros b H; [reflexivity|]. rewrite app_length, map_app, list_sum_app. cbn [length map list_sum fold_right]. rewrite Nat.add_1_r. cbn [total]. rewrite IH.
  - rewrite (H (length calls) k); [lia|]. rewrite nth_error_app2, Nat.sub_diag by lia. reflexivity.
  - intros i k' Hk. apply H. rewrite nth_error_app1; [exact Hk|]. apply nth_error_Some. congruence.
Qed.
Definition same_encs (w w' : world) : Prop := forall e, e_ptr (encs w' e) = e_ptr (encs w e) /\ e_len (encs w' e) = e_len (encs w e) /\ e_f (encs w' e) = e_f (encs w e) /\ e_c (encs w' e) = e_c (encs w e) /\ e_lgen (encs w' e) = e_lgen (encs w e).
Lemma in_order_same w w' : in_order w -> same_encs w w' -> map (@length N) (arrays w') = map (@length N) (arrays w) -> in_order w'.
Proof.
  intros [O1 O2] Se M. split.
  - intros e. destruct (Se e) as [-> [-> _]]. specialize (O1 e). destruct (e_ptr (encs w e)) as [a|]; [|exact O1]. destruct O1 as [buf [Hb Lb]]. pose proof (map_nth_error (@length N) _ _ Hb) as X. rewrite <- M in X. rewrite nth_error_map in X. destruct (nth_error (arrays w') a) as [buf'|]; [|discriminate]. injection X as X. exists buf'. split; [reflexivity|lia].
  - intros e e' a. destruct (Se e) as [-> _]. destruct (Se e') as [-> _]. apply O2.
Qed.
(** Every call finds a buffer that is long enough (a longer block was encoded before): nothing crashes or hangs, every call ends with as many bytes as it was asked for, nobody's buffer is exchanged. *)
Theorem C80_room poly alpha f calls w n w' T' : NewField poly alpha = Some f -> in_order w ->
  (forall i k, nth_error calls i = Some k -> made f (e_c (encs w (on k))) (encs w (on k)) /\ e_c (encs w (on k)) <= length (check k) /\ needs w k <= e_len (encs w (on k))) ->
  xsteps calls n (w, started calls w) (w', T') ->
  n <= list_sum (map (cost w) calls) /\ no_wild calls T' /\ in_order w' /\ same_encs w w' /\
  forall i k, nth_error calls i = Some k -> goes_well calls w' T' i (fun ch => length ch = length (check k)).
Proof.
  intros E O M R.
  set (good := fun (w0 : world) (T : nat -> prog) (b : nat -> nat) => forall i k, nth_error calls i = Some k ->
     (exists ch, T i = Done ch /\ length ch = length (check k)) \/ exists a, e_ptr (encs w0 (on k)) = Some a /\ stays a (e_len (encs w0 (on k))) (fun ch => length ch = length (check k)) (b i) (T i)).
  assert (Inv : exists b, n + total b (length calls) <= list_sum (map (cost w) calls) /\ good w' T' b /\ same_encs w w' /\ map (@length N) (arrays w') = map (@length N) (arrays w)).
  { remember (w, started calls w) as s0 eqn:E0. remember (w', T') as s1 eqn:E1. revert w' T' E1. induction R as [s|n s s1 s2 H IH St]; intros w' T' E1; subst s.
    - injection E1 as <- <-. exists (fun i => match nth_error calls i with Some k => cost w k | None => 0 end). split; [|split; [|split; [repeat split|reflexivity]]].
      + cbn [Nat.add]. rewrite (total_calls (cost w)); [apply le_n|]. intros i k ->. reflexivity.
      + intros i k Hi. rewrite Hi. destruct (M i k Hi) as [[M1 [_ M2]] [Hc Hn]]. destruct O as [O _]. specialize (O (on k)). unfold started. rewrite Hi. cbn zeta. rewrite M1, M2. cbn [NewRSEncoder rs_lgen]. destruct (e_ptr (encs w (on k))) as [a|].
        * right. exists a. split; [reflexivity|]. apply stays_ecc; [auto|exact Hc|eapply lgen_length; exact E|exact Hn].
        * left. exists (check k). split; [|reflexivity]. unfold needs in Hn. unfold ecc. replace (e_c (encs w (on k))) with 0 by lia. reflexivity.
    - destruct St as [w1 T1 j kj w2 p' Hj A]. injection E1 as <- <-. destruct (IH eq_refl w1 T1 eq_refl) as [b [B1 [B2 [B3 B4]]]].
      assert (O1 : in_order w1) by (eapply in_order_same; eassumption).
      destruct (B2 j kj Hj) as [[ch [Ed _]]|[a [Ea St]]]; [rewrite Ed in A; inversion A|]. destruct O1 as [O1 _]. specialize (O1 (on kj)). rewrite Ea in O1. destruct O1 as [buf [Hb Lb]].
      destruct (act_stays _ _ _ _ _ _ _ _ _ _ A St Ea eq_refl Hb Lb) as [m [Em [St' [Se Ma]]]]. exists (put b j m). split; [|split; [|split]].
      + pose proof (total_put b j m (length calls) ltac:(apply nth_error_Some; congruence)). lia.
      + intros i k Hi. destruct (Se (on k)) as [-> [-> _]]. destruct (Nat.eq_dec i j) as [->|Ne]; [|rewrite !put_other by exact Ne; apply B2; exact Hi]. assert (k = kj) by congruence. subst k. rewrite !put_same. right. exists a. auto.
      + intros e. destruct (Se e) as [-> [-> [-> [-> ->]]]]. apply B3.
      + congruence. }
  destruct Inv as [b [B1 [B2 [B3 B4]]]]. assert (O1 : in_order w') by (eapply in_order_same; eassumption). split; [lia|]. split; [|split; [exact O1|split; [exact B3|]]].
  - intros j kj Hj. destruct (B2 j kj Hj) as [[ch [-> _]]|[a [_ St]]]; [discriminate|exact (proj1 (stays_fine _ _ _ _ _ St))].
  - intros i k Hi. destruct (B2 i k Hi) as [Hd|[a [Ea St]]]; [left; exact Hd|]. destruct O1 as [O1 _]. specialize (O1 (on k)). rewrite Ea in O1. destruct O1 as [buf [Hb Lb]].
    assert (X : (exists ch, T' i = Done ch /\ length ch = length (check k)) \/ exists w2 p', act (on k) w' (T' i) w2 p').
    { inversion St as [m ch Hr E1 E2|m q Hq E1 E2|m q Hq E1 E2|m q Hq E1 E2|m q Hq E1 E2|m j q Lj Hq E1 E2|m j v q Lj Hq E1 E2|m p q Hp Hq E1 E2]; rewrite <- E2 in *; try (right; do 2 eexists; constructor; fail); [left; eauto| |].
      - destruct (nth_error buf j) as [v|] eqn:Ev; [|apply nth_error_None in Ev; lia]. right. do 2 eexists. eapply a_load; eassumption.
      - right. do 2 eexists. eapply a_save; [exact Hb|lia]. }
    destruct X as [X|[w2 [p' A]]]; [left; exact X|right]. destruct (act_stays _ _ _ _ _ _ _ _ _ _ A St Ea eq_refl Hb Lb) as [m [_ [St' _]]]. exists k, w2, p'. split; [exact Hi|]. split; [exact A|]. exact (stays_fine _ _ _ _ _ St').
Qed.
(** Afterwards the encoders are as good as before: the next call that is alone on its encoder is right. *)
Theorem C80_after poly alpha f calls w w' T' calls2 w2 T2 i k : NewField poly alpha = Some f -> in_order w ->
  (forall i k, nth_error calls i = Some k -> made f (e_c (encs w (on k))) (encs w (on k)) /\ e_c (encs w (on k)) <= length (check k) /\ needs w k <= e_len (encs w (on k))) ->
  reached calls w w' T' -> (forall j kj, nth_error calls j = Some kj -> exists ch, T' j = Done ch) ->
  nth_error calls2 i = Some k -> made f (e_c (encs w (on k))) (encs w (on k)) -> e_c (encs w (on k)) <= length (check k) -> (forall j kj, nth_error calls2 j = Some kj -> on kj = on k -> j = i) ->
  reached calls2 w' w2 T2 -> no_wild calls2 T2 -> goes_well calls2 w2 T2 i (as_alone f (e_c (encs w (on k))) (data k) (check k)).
Proof.
  intros E O M [n R] _ Hi [M1 [M2 M3]] Hc Only R2 NW. destruct (C80_room _ _ _ _ _ _ _ _ E O M R) as [_ [_ [O1 [Se _]]]]. destruct (Se (on k)) as [_ [_ [Sf [Sc Sl]]]]. rewrite <- Sc in *. eapply C80_apart; try eassumption. unfold made. rewrite Sf, Sl. auto.
Qed.

(** *** Where sharing goes wrong *)
Definition goes (calls : list call) (s s' : world * (nat -> prog)) : Prop := exists n, xsteps calls n s s'.
Lemma goes_trans calls s s' s'' : goes calls s s' -> goes calls s' s'' -> goes calls s s''.
Proof. intros [n H] [m K]. induction K as [s'|m s' s1 s2 K IH St]; [exists n; exact H|]. destruct (IH H) as [n' H']. exists (S n'). econstructor; eassumption. Qed.
Lemma goes_step calls w T i k w' p' s : nth_error calls i = Some k -> act (on k) w (T i) w' p' -> goes calls (w', put T i p') s -> goes calls (w, T) s.
Proof. intros Hi A G. eapply goes_trans; [|exact G]. exists 1. econstructor; [constructor|econstructor; eassumption]. Qed.
(** Call i alone goes from p with buf in array a to p' with buf' there; nothing else changes. *)
Definition solo (calls : list call) (i a : nat) (p : prog) (buf : list N) (p' : prog) (buf' : list N) : Prop :=
  forall w T, T i = p -> nth_error (arrays w) a = Some buf -> exists w' T', goes calls (w, T) (w', T') /\ T' i = p' /\ (forall j, j <> i -> T' j = T j) /\ nth_error (arrays w') a = Some buf' /\ encs w' = encs w.
Lemma solo_refl calls i a p buf : solo calls i a p buf p buf.
Proof. intros w T Hp Hb. exists w, T. split; [exists 0; constructor|auto]. Qed.
Lemma solo_trans calls i a p buf p1 buf1 p2 buf2 : solo calls i a p buf p1 buf1 -> solo calls i a p1 buf1 p2 buf2 -> solo calls i a p buf p2 buf2.
Proof.
  intros H K w T Hp Hb. destruct (H w T Hp Hb) as [w1 [T1 [G1 [P1 [O1 [B1 E1]]]]]]. destruct (K w1 T1 P1 B1) as [w2 [T2 [G2 [P2 [O2 [B2 E2]]]]]]. exists w2, T2. split; [eapply goes_trans; eassumption|]. split; [exact P2|]. split; [intros j Nj; rewrite O2, O1 by exact Nj; reflexivity|]. split; [exact B2|congruence].
Qed.
Lemma solo_save calls i k a j v q buf : nth_error calls i = Some k -> j < length buf -> solo calls i a (Save a j v q) buf q (set_nth buf j v).
Proof.
  intros Hi Lj w T Hp Hb. do 2 eexists. split; [eapply goes_step; [exact Hi|rewrite Hp; eapply a_save; eassumption|exists 0; constructor]|]. split; [apply put_same|]. split; [intros j' N; apply put_other; exact N|]. split; [|reflexivity]. cbn [arrays]. apply set_nth_here, nth_error_Some. congruence.
Qed.
Lemma solo_copy_in calls i k a L q : nth_error calls i = Some k -> forall d pre rest, length d <= length rest -> L = length pre + length rest -> solo calls i a (copy_in (Some a, L) (length pre) d q) (pre ++ rest) q (pre ++ d ++ skipn (length d) rest).
Proof.
  intros Hi. induction d as [|x d IH]; intros pre rest Ld EL; [apply solo_refl|]. destruct rest as [|y rest]; [cbn in Ld; lia|]. cbn [length] in *. cbn [copy_in snd]. unfold save. cbn [fst snd]. destruct (Nat.ltb_spec (length pre) L); [|lia].
  eapply solo_trans; [eapply solo_save; [exact Hi|rewrite app_length; cbn; lia]|]. rewrite set_nth_mid. replace (pre ++ x :: rest) with ((pre ++ [x]) ++ rest) by (rewrite <- app_assoc; reflexivity). replace (S (length pre)) with (length (pre ++ [x])) by (rewrite app_length; cbn; lia).
  replace (pre ++ (x :: d) ++ skipn (S (length d)) (y :: rest)) with ((pre ++ [x]) ++ d ++ skipn (length d) rest) by (rewrite <- app_assoc; reflexivity). apply IH; [lia|rewrite app_length; cbn; lia].
Qed.
Lemma solo_pad calls i k a L q : nth_error calls i = Some k -> forall s pre rest, s = length rest -> L = length pre + length rest -> solo calls i a (pad (Some a, L) (length pre) s q) (pre ++ rest) q (pre ++ repeat 0%N s).
Proof.
  intros Hi. induction s as [|s IH]; intros pre rest Es EL; (destruct rest as [|y rest]; cbn [length] in *; try lia); [apply solo_refl|]. cbn [pad]. unfold save. cbn [fst snd]. destruct (Nat.ltb_spec (length pre) L); [|lia].
  eapply solo_trans; [eapply solo_save; [exact Hi|rewrite app_length; cbn; lia]|]. rewrite set_nth_mid. replace (pre ++ 0%N :: rest) with ((pre ++ [0%N]) ++ rest) by (rewrite <- app_assoc; reflexivity). replace (S (length pre)) with (length (pre ++ [0%N])) by (rewrite app_length; cbn; lia).
  replace (pre ++ repeat 0%N (S s)) with ((pre ++ [0%N]) ++ repeat 0%N s) by (rewrite <- app_assoc; reflexivity). apply IH; [lia|rewrite app_length; cbn; lia].
Qed.
Lemma gives_goes calls i k a R : nth_error calls i = Some k -> forall p buf, gives R a p buf -> forall w T, T i = p -> nth_error (arrays w) a = Some buf -> exists w' T' ch, goes calls (w, T) (w', T') /\ T' i = Done ch /\ R ch.
Proof.
  intros Hi p buf G. induction G as [p buf En|j q buf v Hv G IH|j v q buf Lj G IH]; intros w T Hp Hb.
  - clear Hb. revert w T Hp. induction En as [ch Hr|n q En IH|o q En IH|p q E1 IH1 E2 IH2]; intros w T Hp; [exists w, T, ch; split; [exists 0; constructor|auto]|..].
    + destruct (IH {| arrays := arrays w; encs := put (encs w) (on k) (with_len (encs w (on k)) n) |} (put T i q) (put_same _ _ _)) as [w' [T' [ch [Gs [Ed Hr]]]]]. exists w', T', ch. split; [|auto]. eapply goes_step; [exact Hi|rewrite Hp; constructor|exact Gs].
    + destruct (IH {| arrays := arrays w; encs := put (encs w) (on k) (with_ptr (encs w (on k)) o) |} (put T i q) (put_same _ _ _)) as [w' [T' [ch [Gs [Ed Hr]]]]]. exists w', T', ch. split; [|auto]. eapply goes_step; [exact Hi|rewrite Hp; constructor|exact Gs].
    + destruct (IH1 w (put T i p) (put_same _ _ _)) as [w' [T' [ch [Gs [Ed Hr]]]]]. exists w', T', ch. split; [|auto]. eapply goes_step; [exact Hi|rewrite Hp; apply a_left|exact Gs].
  - destruct (IH w (put T i (q v)) (put_same _ _ _) Hb) as [w' [T' [ch [Gs [Ed Hr]]]]]. exists w', T', ch. split; [|auto]. eapply goes_step; [exact Hi|rewrite Hp; eapply a_load; eassumption|exact Gs].
  - destruct (IH {| arrays := set_nth (arrays w) a (set_nth buf j v); encs := encs w |} (put T i q) (put_same _ _ _)) as [w' [T' [ch [Gs [Ed Hr]]]]]; [cbn [arrays]; apply set_nth_here, nth_error_Some; congruence|]. exists w', T', ch. split; [|auto]. eapply goes_step; [exact Hi|rewrite Hp; eapply a_save; eassumption|exact Gs].
Qed.
(** A call up to the division. *)
Definition dividing (f : Field) (lg dat chk : list N) (a L : nat) : prog :=
  outer f (tl lg) (Some a, L) 0 (length dat) (if length dat <=? L then copy_out (Some a, L) (length dat) [] chk (fun ch => store (Some a, L) (Done ch)) else Crash).
Lemma solo_fill calls i k f lg dat chk a L buf : nth_error calls i = Some k -> length buf = L -> length dat <= L ->
  solo calls i a (divide f lg dat chk (Some a, L)) buf (dividing f lg dat chk a L) (dat ++ repeat 0%N (L - length dat)).
Proof.
  intros Hi Lb Ld. unfold divide. cbn [snd]. eapply solo_trans; [apply (solo_copy_in calls i k a L _ Hi dat [] buf); [lia|cbn; lia]|]. cbn [app]. eapply solo_pad; [exact Hi|rewrite skipn_length; lia|rewrite skipn_length; lia].
Qed.
Lemma ecc_fetch calls i k f c lg dat chk a L w T : nth_error calls i = Some k -> c <= length chk -> 1 <= c -> length dat + c <= L -> e_ptr (encs w (on k)) = Some a -> e_len (encs w (on k)) = L ->
  T i = ecc f c lg dat chk -> exists T', goes calls (w, T) (w, T') /\ T' i = divide f lg dat chk (Some a, L) /\ forall j, j <> i -> T' j = T j.
Proof.
  intros Hi Lc Hc Hn Ea El Hp. unfold ecc in Hp. destruct (Nat.ltb_spec (length chk) c); [lia|]. destruct (Nat.eqb_spec c 0); [lia|].
  eexists. split; [|split].
  - eapply goes_step; [exact Hi|rewrite Hp; constructor|]. rewrite El. destruct (Nat.leb_spec (length dat + c) L); [|lia]. eapply goes_step; [exact Hi|rewrite put_same; apply a_left|]. eapply goes_step; [exact Hi|rewrite put_same; constructor|]. rewrite Ea. eapply goes_step; [exact Hi|rewrite put_same; constructor|]. rewrite El. exists 0. constructor.
  - apply put_same.
  - intros j N. rewrite !put_other by exact N. reflexivity.
Qed.
(** Refuted: that a call gives the check bytes of its own data.  Two calls with data of the same length, the buffer long enough: the first can return the check bytes of the data of the second. *)
Theorem C80_exchange_refuted poly alpha f c w a d1 d2 chk1 chk2 : NewField poly alpha = Some f -> in_order w -> made f c (encs w 0) -> e_ptr (encs w 0) = Some a -> 1 <= c -> c <= length chk1 -> c <= length chk2 ->
  length d1 = length d2 -> length d1 + c <= e_len (encs w 0) ->
  exists w' T' ch, reached [{| on := 0; data := d1; check := chk1 |}; {| on := 0; data := d2; check := chk2 |}] w w' T' /\ T' 0 = Done ch /\ as_alone f c d2 chk1 ch.
Proof.
  intros E [O _] [M1 [M2 M3]] Ea Hc L1 L2 Ld Ln. specialize (O 0). rewrite Ea in O. destruct O as [buf [Hb Lb]]. set (L := e_len (encs w 0)) in *. cbn [NewRSEncoder rs_lgen] in M3.
  set (k1 := {| on := 0; data := d1; check := chk1 |}). set (k2 := {| on := 0; data := d2; check := chk2 |}). set (calls := [k1; k2]).
  destruct (ecc_fetch calls 0 k1 f c (lgen f c) d1 chk1 a L w (started calls w) eq_refl L1 Hc Ln Ea eq_refl) as [T1 [G1 [P1 O1]]]; [unfold started; cbn; rewrite M1, M2, M3; reflexivity|].
  destruct (ecc_fetch calls 1 k2 f c (lgen f c) d2 chk2 a L w T1 eq_refl L2 Hc ltac:(lia) Ea eq_refl) as [T2 [G2 [P2 O2]]]; [rewrite O1 by lia; unfold started; cbn; rewrite M1, M2, M3; reflexivity|].
  destruct (solo_fill calls 0 k1 f (lgen f c) d1 chk1 a L buf eq_refl Lb ltac:(lia) w T2 ltac:(rewrite O2 by lia; exact P1) Hb) as [w3 [T3 [G3 [P3 [O3 [B3 _]]]]]].
  destruct (solo_fill calls 1 k2 f (lgen f c) d2 chk2 a L (d1 ++ repeat 0%N (L - length d1)) eq_refl ltac:(rewrite app_length, repeat_length; lia) ltac:(lia) w3 T3 ltac:(rewrite O3 by lia; exact P2) B3) as [w4 [T4 [G4 [P4 [O4 [B4 _]]]]]].
  pose proof (lgen_length _ _ _ c E) as Ll. pose proof (alone_copy poly alpha f c d2 chk1 L E Hc L1 ltac:(lia)) as Al.
  assert (Gv : gives (as_alone f c d2 chk1) a (dividing f (lgen f c) d1 chk1 a L) (d2 ++ repeat 0%N (L - length d2))).
  { unfold dividing. apply gives_after; [rewrite app_length, repeat_length; lia|destruct (lgen f c); cbn in *; lia|]. rewrite Ld. exact Al. }
  destruct (gives_goes calls 0 k1 a _ eq_refl _ _ Gv w4 T4 ltac:(rewrite O4 by lia; exact P3) B4) as [w5 [T5 [ch [G5 [P5 R5]]]]]. exists w5, T5, ch. split; [|auto]. do 4 (eapply goes_trans; [eassumption|]). exact G5.
Qed.

(** A schedule, run. *)
Definition do_act (e : nat) (w : world) (p : prog) (b : bool) : option (world * prog) :=
  match p with
  | Done _ | Crash | Wild => None
  | GetLen k => Some (w, k (e_len (encs w e)))
  | GetPtr k => Some (w, k (e_ptr (encs w e)))
  | SetLen n k => Some ({| arrays := arrays w; encs := put (encs w) e (with_len (encs w e) n) |}, k)
  | SetPtr a k => Some ({| arrays := arrays w; encs := put (encs w) e (with_ptr (encs w e) a) |}, k)
  | Make n k => Some ({| arrays := arrays w ++ [repeat 0%N n]; encs := encs w |}, k (length (arrays w)))
  | Load a i k => match nth_error (arrays w) a with Some buf => match nth_error buf i with Some v => Some (w, k v) | None => Some (w, Wild) end | None => None end
  | Save a i v k => match nth_error (arrays w) a with Some buf => if i <? length buf then Some ({| arrays := set_nth (arrays w) a (set_nth buf i v); encs := encs w |}, k) else Some (w, Wild) | None => None end
  | Either p q => Some (w, if b then p else q)
  end.
Lemma do_act_ok e w p b w' p' : do_act e w p b = Some (w', p') -> act e w p w' p'.
Proof.
  intros H. destruct p as [ch| | |k|k|n k|o k|n k|a i k|a i v k|p q]; cbn [do_act] in H; try discriminate; try (injection H as <- <-; solve [constructor]).
  - destruct (nth_error (arrays w) a) as [buf|] eqn:E1; [|discriminate]. destruct (nth_error buf i) as [v|] eqn:E2; injection H as <- <-; [eapply a_load|eapply a_load_wild]; eassumption.
  - destruct (nth_error (arrays w) a) as [buf|] eqn:E1; [|discriminate]. destruct (Nat.ltb_spec i (length buf)); injection H as <- <-; [eapply a_save|eapply a_save_wild]; eassumption.
  - injection H as <- <-. destruct b; constructor.
Qed.
(** (i, m): m steps of call i. *)
Fixpoint exec1 (e : nat) (m : nat) (w : world) (p : prog) : option (world * prog) :=
  match m with 0 => Some (w, p) | S m' => match do_act e w p true with Some (w', p') => exec1 e m' w' p' | None => None end end.
Fixpoint exec (calls : list call) (sched : list (nat * nat)) (w : world) (ps : list prog) : option (world * list prog) :=
  match sched with
  | [] => Some (w, ps)
  | (i, m) :: r => match nth_error calls i, nth_error ps i with
                   | Some k, Some p => match exec1 (on k) m w p with Some (w', p') => exec calls r w' (set_nth ps i p') | None => None end
                   | _, _ => None end
  end.
Lemma exec1_goes calls i k : nth_error calls i = Some k -> forall m w p w' p' T, exec1 (on k) m w p = Some (w', p') -> T i = p -> exists T', goes calls (w, T) (w', T') /\ T' i = p' /\ forall j, j <> i -> T' j = T j.
Proof.
  intros Hi. induction m as [|m IH]; intros w p w' p' T H Hp; cbn [exec1] in H; [injection H as <- <-; exists T; split; [exists 0; constructor|auto]|].
  destruct (do_act (on k) w p true) as [[w1 p1]|] eqn:E; [|discriminate]. apply do_act_ok in E. destruct (IH w1 p1 w' p' (put T i p1) H (put_same _ _ _)) as [T' [G [P Q]]]. exists T'. split; [eapply goes_step; [exact Hi|rewrite Hp; exact E|exact G]|]. split; [exact P|]. intros j N. rewrite Q, put_other by exact N. reflexivity.
Qed.
Lemma exec_goes calls : forall sched w ps w' ps' T, exec calls sched w ps = Some (w', ps') -> (forall j p, nth_error ps j = Some p -> T j = p) -> exists T', goes calls (w, T) (w', T') /\ forall j p, nth_error ps' j = Some p -> T' j = p.
Proof.
  induction sched as [|[i m] r IH]; intros w ps w' ps' T H HT; cbn [exec] in H; [injection H as <- <-; exists T; split; [exists 0; constructor|exact HT]|].
  destruct (nth_error calls i) as [k|] eqn:Hi; [|discriminate]. destruct (nth_error ps i) as [p|] eqn:Hp; [|discriminate]. destruct (exec1 (on k) m w p) as [[w1 p1]|] eqn:E1; [|discriminate].
  destruct (exec1_goes calls i k Hi m w p w1 p1 T E1 (HT _ _ Hp)) as [T1 [G1 [P1 Q1]]]. destruct (IH w1 (set_nth ps i p1) w' ps' T1 H) as [T' [G2 Q2]].
  - intros j q Hq. destruct (Nat.eq_dec j i) as [->|N]; [rewrite set_nth_here in Hq by (apply nth_error_Some; congruence); congruence|]. rewrite set_nth_other in Hq by auto. rewrite Q1 by exact N. apply HT. exact Hq.
  - exists T'. split; [eapply goes_trans; eassumption|exact Q2].
Qed.
Definition new_enc (f : Field) (c : nat) : enc := {| e_f := f; e_c := c; e_lgen := lgen f c; e_ptr := None; e_len := 0 |}.
Definition new_world (f : Field) (c : nat) : world := {| arrays := []; encs := fun _ => new_enc f c |}.
Lemma new_in_order f c : in_order (new_world f c) /\ forall e, made f c (encs (new_world f c) e).
Proof. split; [split; [reflexivity|discriminate]|]. intros e. repeat split. Qed.
Definition short_call : call := {| on := 0; data := [1%N]; check := [0%N] |}.
Definition long_call : call := {| on := 0; data := [1%N; 3%N]; check := [0%N] |}.
Lemma schedule_reached calls sched w w' ps' : exec calls sched w (map (started calls w) (seq 0 (length calls))) = Some (w', ps') -> exists T', reached calls w w' T' /\ forall j p, nth_error ps' j = Some p -> T' j = p.
Proof.
  intros H. destruct (exec_goes _ _ _ _ _ _ (started calls w) H) as [T' [[n G] P]]; [|exists T'; split; [exists n; exact G|exact P]].
  intros j p Hj. rewrite nth_error_map in Hj. destruct (nth_error (seq 0 (length calls)) j) as [x|] eqn:Ex; [|discriminate]. injection Hj as <-. assert (Lx : j < length (seq 0 (length calls))) by (apply nth_error_Some; congruence). rewrite seq_length in Lx. rewrite (nth_error_nth' _ 0) in Ex by (rewrite seq_length; exact Lx). rewrite seq_nth in Ex by exact Lx. injection Ex as <-. reflexivity.
Qed.
(** Refuted: that ECC with enough room for the check bytes does not crash.  Three calls on a new encoder, and the words of rs.p need not even be torn apart: the buffer found long enough may have been
    exchanged for a shorter one when it is fetched. *)
Theorem C80_crash_refuted : exists w' T', in_order (new_world qr_field 1) /\ made qr_field 1 (encs (new_world qr_field 1) 0) /\ reached [short_call; long_call; long_call] (new_world qr_field 1) w' T' /\ T' 2 = Crash.
Proof.
  destruct (exec [short_call; long_call; long_call] [(0, 2); (1, 15); (2, 1); (0, 9); (2, 9)] (new_world qr_field 1) (map (started [short_call; long_call; long_call] (new_world qr_field 1)) (seq 0 3))) as [[w' ps']|] eqn:E; [|exfalso; revert E; vm_compute; discriminate].
  assert (P : nth_error ps' 2 = Some Crash) by (transitivity (match exec [short_call; long_call; long_call] [(0, 2); (1, 15); (2, 1); (0, 9); (2, 9)] (new_world qr_field 1) (map (started [short_call; long_call; long_call] (new_world qr_field 1)) (seq 0 3)) with Some (_, ps) => nth_error ps 2 | None => None end); [rewrite E; reflexivity|vm_compute; reflexivity]).
  destruct (schedule_reached _ _ _ _ _ E) as [T' [R H]]. exists w', T'. destruct (new_in_order qr_field 1) as [O M]. split; [exact O|]. split; [apply M|]. split; [exact R|]. exact (H _ _ P).
Qed.
(** Refuted: that calls which have returned leave the encoder usable.  Two calls on a new encoder, both right; afterwards a call that is alone on the encoder writes beyond its buffer. *)
Theorem C80_after_refuted : exists w' T' w2 T2, reached [short_call; long_call] (new_world qr_field 1) w' T' /\ (exists ch, T' 0 = Done ch /\ as_alone qr_field 1 (data short_call) (check short_call) ch)
  /\ (exists ch, T' 1 = Done ch /\ as_alone qr_field 1 (data long_call) (check long_call) ch) /\ reached [long_call] w' w2 T2 /\ T2 0 = Wild.
Proof.
  set (sched := [(0, 2); (1, 14); (0, 9); (1, 1)]). set (calls := [short_call; long_call]). set (w0 := new_world qr_field 1).
  destruct (exec calls sched w0 (map (started calls w0) (seq 0 2))) as [[w' ps']|] eqn:E; [|exfalso; revert E; vm_compute; discriminate].
  assert (P0 : nth_error ps' 0 = Some (Done [1%N]) /\ nth_error ps' 1 = Some (Done [2%N])) by (assert (X : match exec calls sched w0 (map (started calls w0) (seq 0 2)) with Some (_, ps) => nth_error ps 0 = Some (Done [1%N]) /\ nth_error ps 1 = Some (Done [2%N]) | None => False end) by (vm_compute; auto); rewrite E in X; exact X).
  destruct P0 as [P0 P1]. destruct (schedule_reached _ _ _ _ _ E) as [T' [R H]].
  destruct (exec [long_call] [(0, 7)] w' (map (started [long_call] w') (seq 0 1))) as [[w2 ps2]|] eqn:E2.
  - assert (P2 : nth_error ps2 0 = Some Wild).
    { assert (X : match exec calls sched w0 (map (started calls w0) (seq 0 2)) with Some (w', _) => match exec [long_call] [(0, 7)] w' (map (started [long_call] w') (seq 0 1)) with Some (_, ps) => nth_error ps 0 = Some Wild | None => False end | None => False end) by (vm_compute; reflexivity). rewrite E, E2 in X. exact X. }
    destruct (schedule_reached _ _ _ _ _ E2) as [T2 [R2 H2]]. exists w', T', w2, T2. split; [exact R|]. split; [|split; [|split; [exact R2|exact (H2 _ _ P2)]]].
    + exists [1%N]. split; [exact (H _ _ P0)|]. destruct (ECC (NewRSEncoder qr_field 1) [1%N] [0%N]) as [[ch0 rs0]|] eqn:Ec; [|exfalso; revert Ec; vm_compute; discriminate]. exists ch0, rs0, 0. split; [exact Ec|]. assert (X : option_map fst (ECC (NewRSEncoder qr_field 1) [1%N] [0%N]) = Some [1%N]) by (vm_compute; reflexivity). rewrite Ec in X. injection X as ->. auto.
    + exists [2%N]. split; [exact (H _ _ P1)|]. destruct (ECC (NewRSEncoder qr_field 1) [1%N; 3%N] [0%N]) as [[ch0 rs0]|] eqn:Ec; [|exfalso; revert Ec; vm_compute; discriminate]. exists ch0, rs0, 0. split; [exact Ec|]. assert (X : option_map fst (ECC (NewRSEncoder qr_field 1) [1%N; 3%N] [0%N]) = Some [2%N]) by (vm_compute; reflexivity). rewrite Ec in X. injection X as ->. auto.
  - exfalso. assert (X : match exec calls sched w0 (map (started calls w0) (seq 0 2)) with Some (w', _) => match exec [long_call] [(0, 7)] w' (map (started [long_call] w') (seq 0 1)) with Some _ => True | None => False end | None => False end) by (vm_compute; exact I). rewrite E, E2 in X. exact X.
Qed.
(** The hypotheses can be met: a world with two encoders, one new and one with a buffer of its own of 10 bytes; two calls that fit the buffer; a larger one. *)
Example C80_case : let w := {| arrays := [repeat 7%N 10]; encs := fun e => if e =? 1 then {| e_f := qr_field; e_c := 2; e_lgen := lgen qr_field 2; e_ptr := Some 0; e_len := 10 |} else new_enc qr_field 2 |} in
  NewField 285 2 = Some qr_field /\ in_order w /\ (forall e, made qr_field (e_c (encs w e)) (encs w e)) /\ needs w {| on := 1; data := [1%N; 2%N]; check := [0%N; 0%N] |} <= e_len (encs w 1) /\ e_len (encs w 0) < needs w short_call /\ e_ptr (encs w 1) = Some 0.
Proof.
  cbn zeta. split; [exact qr_field_ok|]. split; [split|split; [|unfold needs; cbn; repeat split; lia]].
  - intros e. cbn [encs]. destruct (e =? 1); [exists (repeat 7%N 10); split; reflexivity|reflexivity].
  - intros e e' a. cbn [encs]. destruct (Nat.eqb_spec e 1), (Nat.eqb_spec e' 1); try discriminate. congruence.
  - intros e. cbn [encs]. destruct (e =? 1); repeat split.
Qed.
Print Assumptions C80_apart.
Print Assumptions C80_separate.
Print Assumptions C80_largest.
Print Assumptions C80_own_buffer.
Print Assumptions C80_room.
Print Assumptions C80_after.
Print Assumptions C80_exchange_refuted.
Print Assumptions C80_crash_refuted.
Print Assumptions C80_after_refuted.
