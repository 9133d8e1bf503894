(** * Threefish is invertible: algebra of the specification in TfSpec.v (proofs only). *)
From Coq Require Import ZArith List Bool Lia.
From Verif Require Import TfSpec.
Import ListNotations.
Open Scope Z_scope.

Definition word (x : Z) : Prop := 0 <= x < 2 ^ 64.

Lemma M_pos : 0 < 2 ^ 64. Proof. reflexivity. Qed.
Lemma word_mod x : word (x mod 2 ^ 64).
Proof. apply Z.mod_pos_bound, M_pos. Qed.
Lemma word_small x : word x -> x mod 2 ^ 64 = x.
Proof. apply Z.mod_small. Qed.

(** Words are determined by their 64 bits. *)
Lemma word_testbit x n : word x -> 64 <= n -> Z.testbit x n = false.
Proof.
  intros [H0 H1] Hn. destruct (Z.eq_dec x 0) as [->|Hx]; [apply Z.bits_0|].
  apply Z.bits_above_log2; [assumption|]. assert (Z.log2 x < 64) by (apply Z.log2_lt_pow2; lia). lia.
Qed.
Lemma bits_word x : 0 <= x -> (forall n, 64 <= n -> Z.testbit x n = false) -> word x.
Proof.
  intros H0 H. split; [assumption|].
  destruct (Z.eq_dec x 0) as [->|Hx]; [apply M_pos|].
  apply Z.log2_lt_pow2; [lia|]. destruct (Z.lt_ge_cases (Z.log2 x) 64) as [L|L]; [exact L|].
  specialize (H _ L). rewrite Z.bit_log2 in H by lia. discriminate.
Qed.
Lemma word_lxor x y : word x -> word y -> word (Z.lxor x y).
Proof.
  intros Hx Hy. apply bits_word.
  - apply Z.lxor_nonneg. split; intros; [apply Hy | apply Hx].
  - intros n Hn. rewrite Z.lxor_spec, !word_testbit by assumption. reflexivity.
Qed.

Definition rotl r x := w_rotl word64 r x.
Definition rotr r x := w_rotr word64 r x.

Lemma rotl_bit r x n : 0 < r < 64 -> word x -> 0 <= n ->
  Z.testbit (rotl r x) n
  = if n <? r then Z.testbit x (64 - r + n) else if n <? 64 then Z.testbit x (n - r) else false.
Proof.
  intros Hr Hx Hn. unfold rotl. cbn [w_rotl word64].
  rewrite Z.lor_spec, Z.shiftr_spec by assumption.
  destruct (Z.ltb_spec n r) as [L|L].
  - rewrite Z.mod_pow2_bits_low by lia. rewrite Z.shiftl_spec by assumption.
    rewrite (Z.testbit_neg_r x (n - r)) by lia. cbn. f_equal. lia.
  - rewrite (word_testbit x (n + (64 - r))) by (assumption || lia). rewrite orb_false_r.
    destruct (Z.ltb_spec n 64) as [L2|L2].
    + rewrite Z.mod_pow2_bits_low by lia. apply Z.shiftl_spec. assumption.
    + apply Z.mod_pow2_bits_high. lia.
Qed.
Lemma rotr_bit r x n : 0 < r < 64 -> word x -> 0 <= n ->
  Z.testbit (rotr r x) n
  = if n <? 64 - r then Z.testbit x (n + r) else if n <? 64 then Z.testbit x (n - (64 - r)) else false.
Proof.
  intros Hr Hx Hn. unfold rotr. cbn [w_rotr word64].
  rewrite Z.lor_spec, Z.shiftr_spec by assumption.
  destruct (Z.ltb_spec n (64 - r)) as [L|L].
  - rewrite Z.mod_pow2_bits_low by lia. rewrite Z.shiftl_spec by assumption.
    rewrite (Z.testbit_neg_r x (n - (64 - r))) by lia. apply orb_false_r.
  - rewrite (word_testbit x (n + r)) by (assumption || lia). rewrite orb_false_l.
    destruct (Z.ltb_spec n 64) as [L2|L2].
    + rewrite Z.mod_pow2_bits_low by lia. apply Z.shiftl_spec. assumption.
    + apply Z.mod_pow2_bits_high. lia.
Qed.
Lemma rotl_word r x : 0 < r < 64 -> word x -> word (rotl r x).
Proof.
  intros Hr Hx. apply bits_word.
  - unfold rotl. cbn [w_rotl word64]. apply Z.lor_nonneg. split; [apply word_mod|].
    apply Z.shiftr_nonneg, Hx.
  - intros n Hn. rewrite rotl_bit by (assumption || lia).
    destruct (Z.ltb_spec n r); [lia|]. destruct (Z.ltb_spec n 64); [lia|reflexivity].
Qed.
Lemma rotr_word r x : 0 < r < 64 -> word x -> word (rotr r x).
Proof.
  intros Hr Hx. apply bits_word.
  - unfold rotr. cbn [w_rotr word64]. apply Z.lor_nonneg. split; [|apply word_mod].
    apply Z.shiftr_nonneg, Hx.
  - intros n Hn. rewrite rotr_bit by (assumption || lia).
    destruct (Z.ltb_spec n (64 - r)); [lia|]. destruct (Z.ltb_spec n 64); [lia|reflexivity].
Qed.
Lemma rotr_rotl r x : 0 < r < 64 -> word x -> rotr r (rotl r x) = x.
Proof.
  intros Hr Hx. apply Z.bits_inj'. intros n Hn.
  rewrite rotr_bit by (try apply rotl_word; assumption).
  destruct (Z.ltb_spec n (64 - r)).
  - rewrite rotl_bit by (assumption || lia).
    destruct (Z.ltb_spec (n + r) r); [lia|]. destruct (Z.ltb_spec (n + r) 64); [f_equal; lia|lia].
  - destruct (Z.ltb_spec n 64); [|symmetry; apply word_testbit; assumption].
    rewrite rotl_bit by (assumption || lia).
    destruct (Z.ltb_spec (n - (64 - r)) r); [f_equal; lia|lia].
Qed.
Lemma rotl_rotr r x : 0 < r < 64 -> word x -> rotl r (rotr r x) = x.
Proof.
  intros Hr Hx. apply Z.bits_inj'. intros n Hn.
  rewrite rotl_bit by (try apply rotr_word; assumption).
  destruct (Z.ltb_spec n r).
  - rewrite rotr_bit by (assumption || lia).
    destruct (Z.ltb_spec (64 - r + n) (64 - r)); [lia|]. destruct (Z.ltb_spec (64 - r + n) 64); [f_equal; lia|lia].
  - destruct (Z.ltb_spec n 64); [|symmetry; apply word_testbit; assumption].
    rewrite rotr_bit by (assumption || lia).
    destruct (Z.ltb_spec (n - r) (64 - r)); [f_equal; lia|lia].
Qed.

Lemma sub_add x y : word x -> ((x + y) mod 2 ^ 64 - y) mod 2 ^ 64 = x.
Proof.
  intros H. rewrite Zminus_mod_idemp_l. replace (x + y - y) with x by lia. apply word_small, H.
Qed.
Lemma add_sub x y : word x -> ((x - y) mod 2 ^ 64 + y) mod 2 ^ 64 = x.
Proof.
  intros H. rewrite Zplus_mod_idemp_l. replace (x - y + y) with x by lia. apply word_small, H.
Qed.
Lemma lxor_cancel a b : Z.lxor (Z.lxor a b) b = a.
Proof. rewrite Z.lxor_assoc, Z.lxor_nilpotent, Z.lxor_0_r. reflexivity. Qed.

Definition rots_ok (r : list Z) : bool := forallb (fun c => (0 <? c) && (c <? 64)) r.

Notation Wd := (Forall word).

Lemma mix_word r : forall v, rots_ok r = true -> Wd v -> Wd (mix word64 r v).
Proof.
  induction r as [|c r IH]; intros v Hr Hv; destruct v as [|x0 [|x1 v]]; try exact Hv.
  cbn [rots_ok forallb] in Hr. apply andb_prop in Hr. destruct Hr as [Hc Hr].
  inversion Hv as [|? ? H0 Hv1]; subst. inversion Hv1 as [|? ? H1 Hv2]; subst.
  cbn [mix]. constructor; [apply word_mod|]. constructor; [|apply IH; assumption].
  apply word_lxor; [|apply word_mod]. apply rotl_word; [lia|assumption].
Qed.
Lemma unmix_word r : forall v, rots_ok r = true -> Wd v -> Wd (unmix word64 r v).
Proof.
  induction r as [|c r IH]; intros v Hr Hv; destruct v as [|x0 [|x1 v]]; try exact Hv.
  cbn [rots_ok forallb] in Hr. apply andb_prop in Hr. destruct Hr as [Hc Hr].
  inversion Hv as [|? ? H0 Hv1]; subst. inversion Hv1 as [|? ? H1 Hv2]; subst.
  cbn [unmix]. constructor; [apply word_mod|]. constructor; [|apply IH; assumption].
  apply rotr_word; [lia|]. apply word_lxor; assumption.
Qed.
Lemma unmix_mix r : forall v, rots_ok r = true -> Wd v -> unmix word64 r (mix word64 r v) = v.
Proof.
  induction r as [|c r IH]; intros v Hr Hv; destruct v as [|x0 [|x1 v]]; try reflexivity.
  cbn [rots_ok forallb] in Hr. apply andb_prop in Hr. destruct Hr as [Hc Hr].
  inversion Hv as [|? ? H0 Hv1]; subst. inversion Hv1 as [|? ? H1 Hv2]; subst.
  cbn [mix unmix]. rewrite IH by assumption.
  assert (E : w_rotr word64 c (w_xor word64 (w_xor word64 (w_rotl word64 c x1) (w_add word64 x0 x1)) (w_add word64 x0 x1)) = x1).
  { cbn [w_xor word64]. rewrite lxor_cancel. apply rotr_rotl; [lia|assumption]. }
  rewrite E. f_equal. apply sub_add. assumption.
Qed.
Lemma mix_unmix r : forall v, rots_ok r = true -> Wd v -> mix word64 r (unmix word64 r v) = v.
Proof.
  induction r as [|c r IH]; intros v Hr Hv; destruct v as [|x0 [|x1 v]]; try reflexivity.
  cbn [rots_ok forallb] in Hr. apply andb_prop in Hr. destruct Hr as [Hc Hr].
  inversion Hv as [|? ? H0 Hv1]; subst. inversion Hv1 as [|? ? H1 Hv2]; subst.
  cbn [mix unmix]. rewrite IH by assumption.
  set (y := w_rotr word64 c (w_xor word64 x1 x0)).
  assert (E0 : w_add word64 (w_sub word64 x0 y) y = x0) by (apply add_sub; assumption).
  rewrite E0. f_equal. f_equal. unfold y.
  change (w_rotl word64 c (w_rotr word64 c (w_xor word64 x1 x0))) with (rotl c (rotr c (Z.lxor x1 x0))).
  rewrite rotl_rotr by (lia || (apply word_lxor; assumption)). apply lxor_cancel.
Qed.
Lemma mix_length A r : forall v, length (mix A r v) = length v.
Proof. induction r as [|c r IH]; intros [|x0 [|x1 v]]; cbn [mix length]; auto. Qed.
Lemma unmix_length A r : forall v, length (unmix A r v) = length v.
Proof. induction r as [|c r IH]; intros [|x0 [|x1 v]]; cbn [unmix length]; auto. Qed.

Section Params.
  Variable p : tf_params.
  Definition perm_ok : bool :=
    (length (perm p) =? nw p)%nat
    && forallb (fun i => (i <? nw p)%nat) (perm p)
    && forallb (fun i => (position i (perm p) <? nw p)%nat && (nth (position i (perm p)) (perm p) O =? i)%nat) (seq 0 (nw p))
    && forallb (fun j => (position (nth j (perm p) O) (perm p) =? j)%nat) (seq 0 (nw p)).
  Definition params_ok : bool := perm_ok && forallb rots_ok (rot p).
  Hypothesis OK : params_ok = true.

  Lemma perm_facts : length (perm p) = nw p
    /\ (forall i, In i (perm p) -> (i < nw p)%nat)
    /\ (forall i, (i < nw p)%nat -> (position i (perm p) < nw p)%nat /\ nth (position i (perm p)) (perm p) O = i)
    /\ (forall j, (j < nw p)%nat -> position (nth j (perm p) O) (perm p) = j).
  Proof.
    unfold params_ok, perm_ok in OK. repeat rewrite andb_true_iff in OK.
    destruct OK as [[[[H1 H2] H3] H4] _]. rewrite forallb_forall in H2, H3, H4.
    split; [apply Nat.eqb_eq, H1|]. split; [intros i Hi; apply Nat.ltb_lt, H2, Hi|]. split.
    - intros i Hi. specialize (H3 i). rewrite in_seq in H3. specialize (H3 (conj (Nat.le_0_l _) Hi)).
      apply andb_prop in H3. destruct H3 as [A B]. split; [apply Nat.ltb_lt, A | apply Nat.eqb_eq, B].
    - intros j Hj. specialize (H4 j). rewrite in_seq in H4. specialize (H4 (conj (Nat.le_0_l _) Hj)).
      apply Nat.eqb_eq, H4.
  Qed.
  Lemma rots_facts d : rots_ok (nth d (rot p) []) = true.
  Proof.
    unfold params_ok in OK. apply andb_prop in OK. destruct OK as [_ H]. rewrite forallb_forall in H.
    destruct (nth_in_or_default d (rot p) []) as [Hi|E]; [apply H, Hi | rewrite E; reflexivity].
  Qed.

  Definition blk (v : list Z) : Prop := length v = nw p /\ Wd v.

  Lemma nth_list_ext (v w : list Z) d : length v = length w ->
    (forall i, (i < length v)%nat -> nth i v d = nth i w d) -> v = w.
  Proof. intros L H. apply (nth_ext v w d d L H). Qed.

  Lemma permute_nth (v : list Z) j : (j < nw p)%nat -> nth j (permute word64 p v) 0 = nth (nth j (perm p) O) v 0.
  Proof.
    intros H. destruct perm_facts as [L _]. unfold permute.
    rewrite (nth_indep _ 0 (nth 0 v 0)) by (rewrite map_length; lia).
    apply (map_nth (fun i => nth i v 0)).
  Qed.
  Lemma unpermute_nth (v : list Z) j : (j < nw p)%nat -> nth j (unpermute word64 p v) 0 = nth (position j (perm p)) v 0.
  Proof.
    intros H. unfold unpermute.
    rewrite (nth_indep _ 0 (nth (position 0 (perm p)) v 0)) by (rewrite map_length, seq_length; lia).
    rewrite (map_nth (fun i => nth (position i (perm p)) v 0)). rewrite seq_nth by assumption. reflexivity.
  Qed.
  Lemma permute_length (v : list Z) : length (permute word64 p v) = nw p.
  Proof. unfold permute. rewrite map_length. apply perm_facts. Qed.
  Lemma unpermute_length (v : list Z) : length (unpermute word64 p v) = nw p.
  Proof. unfold unpermute. rewrite map_length, seq_length. reflexivity. Qed.
  Lemma nth_word v i : Wd v -> word (nth i v 0).
  Proof.
    intros H. destruct (nth_in_or_default i v 0) as [Hi|E].
    - rewrite Forall_forall in H. apply H, Hi.
    - rewrite E. split; [lia | apply M_pos].
  Qed.
  Lemma permute_blk v : blk v -> blk (permute word64 p v).
  Proof.
    intros [_ H]. split; [apply permute_length|]. unfold permute. apply Forall_forall.
    intros x Hx. apply in_map_iff in Hx. destruct Hx as [i [<- _]]. apply nth_word, H.
  Qed.
  Lemma unpermute_blk v : blk v -> blk (unpermute word64 p v).
  Proof.
    intros [_ H]. split; [apply unpermute_length|]. unfold unpermute. apply Forall_forall.
    intros x Hx. apply in_map_iff in Hx. destruct Hx as [i [<- _]]. apply nth_word, H.
  Qed.
  Lemma unpermute_permute v : blk v -> unpermute word64 p (permute word64 p v) = v.
  Proof.
    intros [L _]. destruct perm_facts as [_ [_ [F _]]].
    apply (nth_list_ext _ _ 0); rewrite unpermute_length; [symmetry; exact L|].
    intros i Hi. destruct (F i Hi) as [F1 F2].
    rewrite unpermute_nth, permute_nth by assumption. rewrite F2. reflexivity.
  Qed.
  Lemma permute_unpermute v : blk v -> permute word64 p (unpermute word64 p v) = v.
  Proof.
    intros [L _]. destruct perm_facts as [PL [PI [_ F]]].
    apply (nth_list_ext _ _ 0); rewrite permute_length; [symmetry; exact L|].
    intros i Hi. rewrite permute_nth by assumption.
    rewrite unpermute_nth. { rewrite F by assumption. reflexivity. }
    apply PI, nth_In. lia.
  Qed.

  Lemma subkey_length k t s : length (subkey word64 p k t s) = nw p.
  Proof. unfold subkey. rewrite map_length, seq_length. reflexivity. Qed.
  Lemma map2_length f (x y : list Z) : length x = length y -> length (map2 word64 f x y) = length x.
  Proof. intros H. unfold map2. rewrite map_length, combine_length. change (length (A:=W word64) x) with (length (A:=Z) x). change (length (A:=W word64) y) with (length (A:=Z) y). lia. Qed.
  Lemma map2_word (f : Z -> Z -> Z) : (forall x y, word (f x y)) -> forall x y, Wd (map2 word64 f x y).
  Proof.
    intros H x y. unfold map2. apply Forall_forall. intros z Hz. apply in_map_iff in Hz.
    destruct Hz as [q [<- _]]. apply H.
  Qed.
  Lemma map2_inv (f g : Z -> Z -> Z) : (forall x y, word x -> g (f x y) y = x) ->
    forall x y, length x = length y -> Wd x -> map2 word64 g (map2 word64 f x y) y = x.
  Proof.
    intros H x. unfold map2. induction x as [|a x IH]; intros [|b y] L Hx; try discriminate; [reflexivity|].
    inversion Hx; subst. cbn [combine map fst snd]. f_equal; [apply H; assumption|].
    apply IH; [injection L; auto | assumption].
  Qed.

  Variables k t : list Z.

  Lemma addk_blk v s : blk v -> blk (map2 word64 (w_add word64) v (subkey word64 p k t s)).
  Proof.
    intros [L H]. split; [rewrite map2_length; rewrite ?subkey_length; assumption|].
    apply map2_word. intros; apply word_mod.
  Qed.
  Lemma subk_blk v s : blk v -> blk (map2 word64 (w_sub word64) v (subkey word64 p k t s)).
  Proof.
    intros [L H]. split; [rewrite map2_length; rewrite ?subkey_length; assumption|].
    apply map2_word. intros; apply word_mod.
  Qed.
  Lemma subk_addk v s : blk v ->
    map2 word64 (w_sub word64) (map2 word64 (w_add word64) v (subkey word64 p k t s)) (subkey word64 p k t s) = v.
  Proof. intros [L H]. apply map2_inv; [apply sub_add | rewrite subkey_length; exact L | exact H]. Qed.
  Lemma addk_subk v s : blk v ->
    map2 word64 (w_add word64) (map2 word64 (w_sub word64) v (subkey word64 p k t s)) (subkey word64 p k t s) = v.
  Proof. intros [L H]. apply map2_inv; [apply add_sub | rewrite subkey_length; exact L | exact H]. Qed.
  Lemma mix_blk d v : blk v -> blk (mix word64 (nth d (rot p) []) v).
  Proof. intros [L H]. split; [exact (eq_trans (mix_length word64 _ v) L) | apply mix_word; [apply rots_facts | exact H]]. Qed.
  Lemma unmix_blk d v : blk v -> blk (unmix word64 (nth d (rot p) []) v).
  Proof. intros [L H]. split; [exact (eq_trans (unmix_length word64 _ v) L) | apply unmix_word; [apply rots_facts | exact H]]. Qed.

  Lemma round_blk v d : blk v -> blk (round word64 p k t v d).
  Proof.
    intros H. unfold round. apply permute_blk, mix_blk. destruct (Nat.eqb (d mod 4) 0); [apply addk_blk|]; exact H.
  Qed.
  Lemma unround_blk v d : blk v -> blk (unround word64 p k t v d).
  Proof.
    intros H. unfold unround. destruct (Nat.eqb (d mod 4) 0); [apply subk_blk|]; apply unmix_blk, unpermute_blk, H.
  Qed.
  Lemma unround_round v d : blk v -> unround word64 p k t (round word64 p k t v d) d = v.
  Proof.
    intros H. unfold unround, round. destruct (Nat.eqb (d mod 4) 0).
    - rewrite unpermute_permute by (apply mix_blk, addk_blk, H).
      rewrite unmix_mix by (apply rots_facts || apply addk_blk, H). apply subk_addk, H.
    - rewrite unpermute_permute by (apply mix_blk, H).
      apply unmix_mix; [apply rots_facts | apply H].
  Qed.
  Lemma round_unround v d : blk v -> round word64 p k t (unround word64 p k t v d) d = v.
  Proof.
    intros H. unfold unround, round. destruct (Nat.eqb (d mod 4) 0).
    - rewrite addk_subk by (apply unmix_blk, unpermute_blk, H).
      rewrite mix_unmix by (apply rots_facts || apply unpermute_blk, H). apply permute_unpermute, H.
    - rewrite mix_unmix by (apply rots_facts || apply unpermute_blk, H). apply permute_unpermute, H.
  Qed.
  Lemma rounds_blk ds : forall v, blk v -> blk (fold_left (round word64 p k t) ds v).
  Proof. induction ds as [|d ds IH]; intros v H; [exact H|]. apply IH, round_blk, H. Qed.
  Lemma unrounds_blk ds : forall v, blk v -> blk (fold_left (unround word64 p k t) ds v).
  Proof. induction ds as [|d ds IH]; intros v H; [exact H|]. apply IH, unround_blk, H. Qed.
  Lemma unrounds_rounds ds : forall v, blk v ->
    fold_left (unround word64 p k t) (rev ds) (fold_left (round word64 p k t) ds v) = v.
  Proof.
    induction ds as [|d ds IH]; intros v H; [reflexivity|].
    cbn [fold_left rev]. rewrite fold_left_app. cbn [fold_left].
    rewrite IH by (apply round_blk, H). apply unround_round, H.
  Qed.
  Lemma rounds_unrounds ds : forall v, blk v ->
    fold_left (round word64 p k t) ds (fold_left (unround word64 p k t) (rev ds) v) = v.
  Proof.
    induction ds as [|d ds IH]; intros v H; [reflexivity|].
    cbn [fold_left rev]. rewrite fold_left_app. cbn [fold_left].
    rewrite round_unround by (apply unrounds_blk, H). apply IH, H.
  Qed.
  Lemma enc_ext_blk v : blk v -> blk (enc_ext word64 p k t v).
  Proof. intros H. unfold enc_ext. apply addk_blk, rounds_blk, H. Qed.
  Lemma dec_ext_blk v : blk v -> blk (dec_ext word64 p k t v).
  Proof. intros H. unfold dec_ext. apply unrounds_blk, subk_blk, H. Qed.
  Theorem dec_enc v : blk v -> dec_ext word64 p k t (enc_ext word64 p k t v) = v.
  Proof.
    intros H. unfold dec_ext, enc_ext. rewrite subk_addk by (apply rounds_blk, H). apply unrounds_rounds, H.
  Qed.
  Theorem enc_dec v : blk v -> enc_ext word64 p k t (dec_ext word64 p k t v) = v.
  Proof.
    intros H. unfold dec_ext, enc_ext. rewrite rounds_unrounds by (apply subk_blk, H). apply addk_subk, H.
  Qed.
End Params.

Lemma tf256_ok : params_ok tf256 = true. Proof. reflexivity. Qed.
Lemma tf512_ok : params_ok tf512 = true. Proof. reflexivity. Qed.
Lemma tf1024_ok : params_ok tf1024 = true. Proof. reflexivity. Qed.
