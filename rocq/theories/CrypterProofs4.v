(** * Lemmas behind the cipher properties. *)
From Coq Require Import ZArith List Bool Lia.
From Verif Require Import TfLang TfSpec TfAlgebra TfSym TfProofs TfConform CrypterModel CrypterSpec
  CrypterContract CrypterProofs CrypterProofs2 CrypterProofs3.
Import ListNotations.
Open Scope Z_scope.

Definition vinv (c : cipher) (v : variant) (ss : Z) (st : list Z * Z * Z) : Prop :=
  let '(k, t0, t1) := st in Inv c v ss k t0 t1.

Lemma params_of_inv n p : params_of n = Some p ->
  (n = 32%nat /\ p = tf256) \/ (n = 64%nat /\ p = tf512) \/ (n = 128%nat /\ p = tf1024).
Proof.
  unfold params_of. destruct (Nat.eqb_spec n 32) as [E|E]; [intros H; inversion H; auto|].
  destruct (Nat.eqb_spec n 64) as [E2|E2]; [intros H; inversion H; auto|].
  destruct (Nat.eqb_spec n 128) as [E3|E3]; [intros H; inversion H; auto|discriminate].
Qed.

Lemma New_ret key tw p : params_of (length key) = Some p ->
  match tweak_words tw with
  | None => New key tw = Panic
  | Some (t0, t1) => exists v c, params v = p /\ New key tw = Ret c
        /\ Inv c v (64 * Z.of_nat (qwords v)) (words_of_bytes (nw p) key) t0 t1
  end.
Proof.
  intros H. apply params_of_inv in H. unfold New.
  destruct H as [[L ->]|[[L ->]|[L ->]]]; rewrite L; cbn [Z.of_nat Z.eqb];
    [pose proof (newThreefish_spec 256 V256 key tw) as N
    |pose proof (newThreefish_spec 512 V512 key tw) as N
    |pose proof (newThreefish_spec 1024 V1024 key tw) as N];
    rewrite L in N; specialize (N ltac:(cbn; lia) ltac:(vm_compute; lia));
    destruct (tweak_words tw) as [[t0 t1]|]; try exact N; destruct N as [c [E I]].
  - exists V256, c. auto.
  - exists V512, c. auto.
  - exists V1024, c. auto.
Qed.
Lemma New64_ret key tw p : params_of_words (length key) = Some p ->
  match tweak_words tw with
  | None => New64 key tw = Panic
  | Some (t0, t1) => exists v c, params v = p /\ New64 key tw = Ret c
        /\ Inv c v (8 * Z.of_nat (qwords v)) key t0 t1
  end.
Proof.
  intros H. apply params_of_inv in H. unfold New64.
  destruct H as [[L ->]|[[L ->]|[L ->]]];
    [assert (L' : length key = 4%nat) by lia|assert (L' : length key = 8%nat) by lia
    |assert (L' : length key = 16%nat) by lia]; rewrite L'; cbn [Z.of_nat Z.eqb];
    [pose proof (newThreefish_64_spec 32 V256 key tw L') as N
    |pose proof (newThreefish_64_spec 64 V512 key tw L') as N
    |pose proof (newThreefish_64_spec 128 V1024 key tw L') as N];
    specialize (N ltac:(vm_compute; lia));
    destruct (tweak_words tw) as [[t0 t1]|]; try exact N; destruct N as [c [E I]].
  - exists V256, c. auto.
  - exists V512, c. auto.
  - exists V1024, c. auto.
Qed.
Lemma NewSize_ret size c : NewSize size = Ret c ->
  exists v, size = 64 * Z.of_nat (qwords v) /\ Inv c v size (repeat 0 (qwords v)) 0 0.
Proof.
  unfold NewSize. intros H.
  destruct (Z.eqb_spec size 256) as [->|E1]; [|destruct (Z.eqb_spec size 512) as [->|E2];
    [|destruct (Z.eqb_spec size 1024) as [->|E3]; [|discriminate]]].
  - destruct (newThreefish_nil_spec 256 V256 ltac:(vm_compute; lia)) as [c' [E I]].
    rewrite E in H. inversion H; subst. exists V256. auto.
  - destruct (newThreefish_nil_spec 512 V512 ltac:(vm_compute; lia)) as [c' [E I]].
    rewrite E in H. inversion H; subst. exists V512. auto.
  - destruct (newThreefish_nil_spec 1024 V1024 ltac:(vm_compute; lia)) as [c' [E I]].
    rewrite E in H. inversion H; subst. exists V1024. auto.
Qed.

Lemma created_inv c p st : created c p st ->
  exists v ss, params v = p /\ vinv c v ss st /\ (ss = 64 * Z.of_nat (qwords v) \/ ss = 8 * Z.of_nat (qwords v)).
Proof.
  intros H. destruct H as [key tw c p t0 t1 P T N|key tw c p t0 t1 P T N|size c p P N].
  - pose proof (New_ret key tw p P) as R. rewrite T in R. destruct R as [v [c' [E1 [E2 I]]]].
    rewrite E2 in N. inversion N; subst. exists v, (64 * Z.of_nat (qwords v)). auto.
  - pose proof (New64_ret key tw p P) as R. rewrite T in R. destruct R as [v [c' [E1 [E2 I]]]].
    rewrite E2 in N. inversion N; subst. exists v, (8 * Z.of_nat (qwords v)). auto.
  - destruct (NewSize_ret size c N) as [v [E I]]. exists v, size.
    assert (params v = p).
    { subst size. destruct v; cbn in P; inversion P; reflexivity. }
    subst p. rewrite params_nw. auto.
Qed.

(** Which constructors record the right state size. *)
Lemma created_full c p st : created c p st -> stateSize c = 64 * Z.of_nat (nw p) ->
  exists v, params v = p /\ vinv c v (64 * Z.of_nat (qwords v)) st.
Proof.
  intros H S. destruct (created_inv c p st H) as [v [ss [E [I D]]]]. exists v. split; [exact E|].
  destruct st as [[k t0] t1]. pose proof I as [_ [Ess _]]. subst p. rewrite params_nw in S.
  rewrite S in Ess. subst ss. exact I.
Qed.

Lemma step_inv c v ss st o c' m : vinv c v ss st -> wf_op o -> step c o = Some (c', m) ->
  vinv c' v ss (set1 (params v) st o).
Proof.
  destruct st as [[k t0] t1]. cbn [vinv]. intros I W H.
  destruct o as [key|tw|mem d s|mem d s|mem d s|mem d s]; cbn [step] in H.
  - pose proof (SetKey_spec _ _ _ _ _ _ key I) as S. cbn [set1]. rewrite params_nw.
    destruct (length key <? qwords v)%nat; [rewrite S in H; discriminate|].
    destruct S as [c1 [E I']]. rewrite E in H. inversion H; subst. exact I'.
  - pose proof (SetTweak_spec _ _ _ _ _ _ tw I) as S. cbn [set1].
    destruct tw as [[|a [|b tw]]|]; try (rewrite S in H; discriminate).
    + destruct S as [c1 [E I']]. rewrite E in H. inversion H; subst. exact I'.
    + rewrite S in H. inversion H; subst. exact I.
  - pose proof (crypt_bytes_spec _ _ enc_body_spec _ _ _ _ _ _ mem d s I) as S. cbv zeta in S.
    destruct W as [W1 W2]. specialize (S W2 W1). cbn [set1 vinv]. unfold Encrypt in H.
    destruct (_ || _)%bool; [destruct S as [c1 [I' E]]; rewrite E in H; inversion H; subst; exact I'
                            |rewrite S in H; discriminate].
  - pose proof (crypt_bytes_spec _ _ dec_body_spec _ _ _ _ _ _ mem d s I) as S. cbv zeta in S.
    destruct W as [W1 W2]. specialize (S W2 W1). cbn [set1 vinv]. unfold Decrypt in H.
    destruct (_ || _)%bool; [destruct S as [c1 [I' E]]; rewrite E in H; inversion H; subst; exact I'
                            |rewrite S in H; discriminate].
  - cbn [set1 vinv]. unfold Encrypt64, crypt_words in H. destruct (_ || _)%bool; [discriminate|].
    inversion H; subst. exact I.
  - cbn [set1 vinv]. unfold Decrypt64, crypt_words in H. destruct (_ || _)%bool; [discriminate|].
    inversion H; subst. exact I.
Qed.
Lemma run_inv ops : forall c v ss st c', vinv c v ss st -> Forall wf_op ops -> run c ops = Some c' ->
  vinv c' v ss (settings (params v) st ops).
Proof.
  induction ops as [|o ops IH]; intros c v ss st c' I W H; cbn [run] in H.
  - inversion H; subst. exact I.
  - inversion W as [|? ? W1 W2]; subst. destruct (step c o) as [[c1 m]|] eqn:E; [|discriminate].
    cbn [settings fold_left]. apply (IH c1 v ss _ c'); [|assumption|assumption].
    apply (step_inv _ _ _ _ _ _ _ I W1 E).
Qed.

(** ** Word-level behaviour after any history *)
Lemma enc64_history c0 p st ops c mem d s : created c0 p st -> Forall wf_op ops -> run c0 ops = Some c ->
  wf_op (OpEncrypt64 mem d s) ->
  Encrypt64 c mem d s
  = (let '(k, t0, t1) := settings p st ops in
     if (snd s <? nw p)%nat || (snd d <? nw p)%nat then None
     else Some (c, overwrite mem (fst d) (threefish_encrypt word64 p k t0 t1 (region mem (fst s) (nw p))))).
Proof.
  intros C W R [Wd Ws]. destruct (created_inv _ _ _ C) as [v [ss [<- [I _]]]].
  pose proof (run_inv _ _ _ _ _ _ I W R) as I'. destruct (settings (params v) st ops) as [[k t0] t1].
  cbn [vinv] in I'. unfold Encrypt64. rewrite (crypt_words_spec _ _ enc_body_spec enc_alias _ _ _ _ _ _ mem d s I' Ws Wd).
  rewrite params_nw. reflexivity.
Qed.
Lemma dec64_history c0 p st ops c mem d s : created c0 p st -> Forall wf_op ops -> run c0 ops = Some c ->
  wf_op (OpDecrypt64 mem d s) ->
  Decrypt64 c mem d s
  = (let '(k, t0, t1) := settings p st ops in
     if (snd s <? nw p)%nat || (snd d <? nw p)%nat then None
     else Some (c, overwrite mem (fst d) (threefish_decrypt word64 p k t0 t1 (region mem (fst s) (nw p))))).
Proof.
  intros C W R [Wd Ws]. destruct (created_inv _ _ _ C) as [v [ss [<- [I _]]]].
  pose proof (run_inv _ _ _ _ _ _ I W R) as I'. destruct (settings (params v) st ops) as [[k t0] t1].
  cbn [vinv] in I'. unfold Decrypt64. rewrite (crypt_words_spec _ _ dec_body_spec dec_alias _ _ _ _ _ _ mem d s I' Ws Wd).
  rewrite params_nw. reflexivity.
Qed.

(** ** Byte-level behaviour after any history, for ciphers with the right state size *)
Lemma load_block_full v mem o : load_block v (qwords v) mem o = words_of_bytes (qwords v) (region mem o (8 * qwords v)).
Proof. unfold load_block. rewrite Nat.sub_diag. cbn [repeat]. apply app_nil_r. Qed.

Lemma ss_words v : Z.to_nat (64 * Z.of_nat (qwords v) / 64) = qwords v.
Proof. rewrite Z.mul_comm, Z.div_mul by lia. apply Nat2Z.id. Qed.

Lemma enc_bytes_history c0 p st ops c mem d s : created c0 p st -> stateSize c0 = 64 * Z.of_nat (nw p) ->
  Forall wf_op ops -> run c0 ops = Some c -> wf_op (OpEncrypt mem d s) ->
  (8 * nw p <= cap d)%nat -> (8 * nw p <= cap s)%nat ->
  let '(k, t0, t1) := settings p st ops in
  exists c', Encrypt c mem d s
    = Some (c', overwrite mem (off d) (bytes_of_words (threefish_encrypt word64 p k t0 t1
         (words_of_bytes (nw p) (region mem (off s) (8 * nw p)))))).
Proof.
  intros C S W R [Wd Ws] Cd Cs. destruct (created_full _ _ _ C S) as [v [<- I]].
  pose proof (run_inv _ _ _ _ _ _ I W R) as I'. destruct (settings (params v) st ops) as [[k t0] t1].
  cbn [vinv] in I'. unfold Encrypt.
  pose proof (crypt_bytes_spec _ _ enc_body_spec _ _ _ _ _ _ mem d s I' Ws Wd) as B. cbv zeta in B.
  rewrite ss_words, load_block_full in B. rewrite params_nw in *.
  destruct (Nat.leb_spec (8 * qwords v) (cap s)); [|lia]. destruct (Nat.leb_spec (8 * qwords v) (cap d)); [|lia].
  rewrite orb_true_r in B. destruct B as [c' [_ E]]. exists c'. rewrite E.
  destruct I' as [_ [_ [Hk _]]].
  assert (LF : @length Z (enc_ext word64 (params v) (extend_key word64 k) (extend_tweak word64 t0 t1)
     (words_of_bytes (qwords v) (region mem (off s) (8 * qwords v)))) = qwords v).
  { rewrite <- enc_body_spec; [apply run_body_length | apply words_of_bytes_length | apply ekl, Hk | reflexivity]. }
  rewrite (@firstn_all2 Z) by lia. reflexivity.
Qed.
Lemma dec_bytes_history c0 p st ops c mem d s : created c0 p st -> stateSize c0 = 64 * Z.of_nat (nw p) ->
  Forall wf_op ops -> run c0 ops = Some c -> wf_op (OpDecrypt mem d s) ->
  (8 * nw p <= cap d)%nat -> (8 * nw p <= cap s)%nat ->
  let '(k, t0, t1) := settings p st ops in
  exists c', Decrypt c mem d s
    = Some (c', overwrite mem (off d) (bytes_of_words (threefish_decrypt word64 p k t0 t1
         (words_of_bytes (nw p) (region mem (off s) (8 * nw p)))))).
Proof.
  intros C S W R [Wd Ws] Cd Cs. destruct (created_full _ _ _ C S) as [v [<- I]].
  pose proof (run_inv _ _ _ _ _ _ I W R) as I'. destruct (settings (params v) st ops) as [[k t0] t1].
  cbn [vinv] in I'. unfold Decrypt.
  pose proof (crypt_bytes_spec _ _ dec_body_spec _ _ _ _ _ _ mem d s I' Ws Wd) as B. cbv zeta in B.
  rewrite ss_words, load_block_full in B. rewrite params_nw in *.
  destruct (Nat.leb_spec (8 * qwords v) (cap s)); [|lia]. destruct (Nat.leb_spec (8 * qwords v) (cap d)); [|lia].
  rewrite orb_true_r in B. destruct B as [c' [_ E]]. exists c'. rewrite E.
  destruct I' as [_ [_ [Hk _]]].
  assert (LF : @length Z (dec_ext word64 (params v) (extend_key word64 k) (extend_tweak word64 t0 t1)
     (words_of_bytes (qwords v) (region mem (off s) (8 * qwords v)))) = qwords v).
  { rewrite <- dec_body_spec; [apply run_body_length | apply words_of_bytes_length | apply ekl, Hk | reflexivity]. }
  rewrite (@firstn_all2 Z) by lia. reflexivity.
Qed.

(** ** Observational equality of histories *)
Lemma step_obs c1 c2 v ss st o : vinv c1 v ss st -> vinv c2 v ss st -> wf_op o ->
  option_map snd (step c1 o) = option_map snd (step c2 o).
Proof.
  destruct st as [[k t0] t1]. cbn [vinv]. intros I1 I2 W.
  destruct o as [key|tw|mem d s|mem d s|mem d s|mem d s]; cbn [step].
  - pose proof (SetKey_spec _ _ _ _ _ _ key I1) as S1. pose proof (SetKey_spec _ _ _ _ _ _ key I2) as S2.
    destruct (length key <? qwords v)%nat; [rewrite S1, S2; reflexivity|].
    destruct S1 as [? [-> _]]. destruct S2 as [? [-> _]]. reflexivity.
  - pose proof (SetTweak_spec _ _ _ _ _ _ tw I1) as S1. pose proof (SetTweak_spec _ _ _ _ _ _ tw I2) as S2.
    destruct tw as [[|a [|b tw]]|]; try (rewrite S1, S2; reflexivity).
    destruct S1 as [? [-> _]]. destruct S2 as [? [-> _]]. reflexivity.
  - destruct W as [W1 W2].
    pose proof (crypt_bytes_spec _ _ enc_body_spec _ _ _ _ _ _ mem d s I1 W2 W1) as S1.
    pose proof (crypt_bytes_spec _ _ enc_body_spec _ _ _ _ _ _ mem d s I2 W2 W1) as S2.
    cbv zeta in S1, S2. unfold Encrypt.
    destruct (_ || _)%bool; [|rewrite S1, S2; reflexivity].
    destruct S1 as [? [_ ->]]. destruct S2 as [? [_ ->]]. reflexivity.
  - destruct W as [W1 W2].
    pose proof (crypt_bytes_spec _ _ dec_body_spec _ _ _ _ _ _ mem d s I1 W2 W1) as S1.
    pose proof (crypt_bytes_spec _ _ dec_body_spec _ _ _ _ _ _ mem d s I2 W2 W1) as S2.
    cbv zeta in S1, S2. unfold Decrypt.
    destruct (_ || _)%bool; [|rewrite S1, S2; reflexivity].
    destruct S1 as [? [_ ->]]. destruct S2 as [? [_ ->]]. reflexivity.
  - destruct W as [W1 W2]. unfold Encrypt64.
    rewrite (crypt_words_spec _ _ enc_body_spec enc_alias _ _ _ _ _ _ mem d s I1 W2 W1).
    rewrite (crypt_words_spec _ _ enc_body_spec enc_alias _ _ _ _ _ _ mem d s I2 W2 W1).
    destruct (_ || _)%bool; reflexivity.
  - destruct W as [W1 W2]. unfold Decrypt64.
    rewrite (crypt_words_spec _ _ dec_body_spec dec_alias _ _ _ _ _ _ mem d s I1 W2 W1).
    rewrite (crypt_words_spec _ _ dec_body_spec dec_alias _ _ _ _ _ _ mem d s I2 W2 W1).
    destruct (_ || _)%bool; reflexivity.
Qed.

Lemma histories_agree c0 p st ops1 ops2 c1 c2 o : created c0 p st ->
  Forall wf_op ops1 -> Forall wf_op ops2 -> run c0 ops1 = Some c1 -> run c0 ops2 = Some c2 ->
  settings p st ops1 = settings p st ops2 -> wf_op o ->
  option_map snd (step c1 o) = option_map snd (step c2 o).
Proof.
  intros C W1 W2 R1 R2 S W. destruct (created_inv _ _ _ C) as [v [ss [<- [I _]]]].
  pose proof (run_inv _ _ _ _ _ _ I W1 R1) as I1. pose proof (run_inv _ _ _ _ _ _ I W2 R2) as I2.
  rewrite S in I1. apply (step_obs _ _ _ _ _ _ I1 I2 W).
Qed.

(** ** Round trips *)
Lemma params_created_ok c p st : created c p st -> params_ok p = true.
Proof. intros C. destruct (created_inv _ _ _ C) as [v [_ [<- _]]]. apply params_okv. Qed.

Lemma region_overwrite mem a bs n : length bs = n -> (a + n <= length mem)%nat -> region (overwrite mem a bs) a n = bs.
Proof.
  intros L La. unfold region, overwrite.
  assert (E : length (firstn a mem) = a) by (rewrite firstn_length; lia).
  rewrite skipn_app, E, Nat.sub_diag. rewrite skipn_all2 by lia. cbn [app skipn].
  rewrite firstn_app, L, Nat.sub_diag. cbn [firstn]. rewrite app_nil_r. apply firstn_all2. lia.
Qed.
Lemma overwrite_length mem a bs : (a + length bs <= length mem)%nat -> length (overwrite mem a bs) = length mem.
Proof. apply blit_length. Qed.

Lemma tf_dec_enc p k t0 t1 b : params_ok p = true -> length b = nw p -> Forall word b ->
  threefish_decrypt word64 p k t0 t1 (threefish_encrypt word64 p k t0 t1 b) = b
  /\ threefish_encrypt word64 p k t0 t1 (threefish_decrypt word64 p k t0 t1 b) = b
  /\ length (threefish_encrypt word64 p k t0 t1 b) = nw p /\ Forall word (threefish_encrypt word64 p k t0 t1 b)
  /\ length (threefish_decrypt word64 p k t0 t1 b) = nw p /\ Forall word (threefish_decrypt word64 p k t0 t1 b).
Proof.
  intros OK L H. assert (B : blk p b) by (split; assumption).
  unfold threefish_decrypt, threefish_encrypt.
  pose proof (enc_ext_blk p OK (extend_key word64 k) (extend_tweak word64 t0 t1) b B) as [E1 E2].
  pose proof (dec_ext_blk p OK (extend_key word64 k) (extend_tweak word64 t0 t1) b B) as [D1 D2].
  split; [apply dec_enc; assumption|]. split; [apply enc_dec; assumption|]. auto.
Qed.

Lemma firstn8_bytes b : bytes b -> (8 <= length b)%nat -> bytes (firstn 8 b) /\ length (firstn 8 b) = 8%nat.
Proof.
  intros H L. split; [|rewrite firstn_length; lia].
  apply Forall_forall. intros x Hx. unfold bytes in H. rewrite Forall_forall in H. apply H.
  rewrite <- (firstn_skipn 8 b). apply in_or_app. left. exact Hx.
Qed.
Lemma Forall_skipn' {A} (P : A -> Prop) n l : Forall P l -> Forall P (skipn n l).
Proof. intros H. rewrite <- (firstn_skipn n l) in H. apply Forall_app in H. apply H. Qed.
Lemma Forall_firstn' {A} (P : A -> Prop) n l : Forall P l -> Forall P (firstn n l).
Proof. intros H. rewrite <- (firstn_skipn n l) in H. apply Forall_app in H. apply H. Qed.
Lemma words_bytes_word n : forall b, bytes b -> (8 * n <= length b)%nat -> Forall word (words_of_bytes n b).
Proof.
  induction n as [|n IH]; intros b H L; cbn [words_of_bytes]; constructor.
  - destruct (firstn8_bytes b H ltac:(lia)). apply word_of_bytes_word; assumption.
  - apply IH; [apply Forall_skipn', H | rewrite skipn_length; lia].
Qed.
Lemma bytes_words_bytes n : forall b, bytes b -> length b = (8 * n)%nat ->
  bytes_of_words (words_of_bytes n b) = b.
Proof.
  induction n as [|n IH]; intros b H L; [destruct b; [reflexivity|discriminate]|].
  cbn [words_of_bytes]. unfold bytes_of_words in *. cbn [flat_map].
  destruct (firstn8_bytes b H ltac:(lia)). rewrite word_roundtrip by assumption.
  rewrite IH; [apply firstn_skipn | apply Forall_skipn', H | rewrite skipn_length; lia].
Qed.
Lemma words_bytes_words ws : Forall word ws -> words_of_bytes (length ws) (bytes_of_words ws) = ws.
Proof.
  induction ws as [|w ws IH]; intros H; [reflexivity|]. inversion H; subst.
  unfold bytes_of_words. cbn [flat_map length words_of_bytes].
  change (firstn 8 (bytes_of_word w ++ flat_map bytes_of_word ws)) with (bytes_of_word w).
  rewrite bytes_roundtrip by assumption. f_equal. apply IH. assumption.
Qed.

(** ** Cryptor *)
Definition cinv (c : Cryptor) : Prop :=
  match c with
  | None => True
  | Some ci => exists v k t0 t1, Inv ci v (64 * Z.of_nat (qwords v)) k t0 t1
  end.
Lemma cryptor_new_inv keytext bits : cinv (Cryptor_New keytext bits).
Proof.
  unfold Cryptor_New. destruct (New keytext (Some cryptor_tweak)) as [c|n|] eqn:N; cbn [cinv]; auto.
  destruct (params_of (length keytext)) as [p|] eqn:P.
  - pose proof (New_ret keytext (Some cryptor_tweak) p P) as R. cbn [tweak_words cryptor_tweak] in R.
    destruct R as [v [c0 [_ [E I]]]]. rewrite E in N. inversion N; subst c0. eauto.
  - unfold params_of in P. unfold New in N.
    destruct (Nat.eqb_spec (length keytext) 32); [discriminate|]. destruct (Nat.eqb_spec (length keytext) 64); [discriminate|].
    destruct (Nat.eqb_spec (length keytext) 128); [discriminate|].
    destruct (Z.eqb_spec (Z.of_nat (length keytext)) 32); [lia|]. destruct (Z.eqb_spec (Z.of_nat (length keytext)) 64); [lia|].
    destruct (Z.eqb_spec (Z.of_nat (length keytext)) 128); [lia|]. discriminate.
Qed.
Lemma cryptor_enc_inv c text c' out : cinv c -> Cryptor_Encrypt c text = Some (c', out) -> cinv c'.
Proof.
  destruct c as [ci|]; [|discriminate]. intros [v [k [t0 [t1 I]]]] H. unfold Cryptor_Encrypt in H.
  set (n := length text) in *. cbv zeta in H.
  pose proof (crypt_bytes_spec _ _ enc_body_spec _ _ _ _ _ _ (text ++ repeat 0 n)
     {| off := n; cap := n |} {| off := 0; cap := n |} I) as B.
  cbn [off cap] in B. rewrite app_length, repeat_length in B. fold n in B.
  specialize (B ltac:(lia) ltac:(lia)). cbv zeta in B. unfold Encrypt in H.
  destruct (_ || _)%bool; [destruct B as [c1 [I' B]]|]; rewrite B in H; [|discriminate].
  inversion H; subst. cbn [cinv]. eauto.
Qed.
Lemma cryptor_dec_zeros decode c text c' out : cinv c -> Cryptor_Decrypt decode c text = Some (c', out) ->
  cinv c' /\ out = repeat 0 (length (decode text)).
Proof.
  destruct c as [ci|]; [|discriminate]. intros [v [k [t0 [t1 I]]]] H. unfold Cryptor_Decrypt in H.
  set (b := decode text) in *. set (n := length b) in *. cbv zeta in H. fold n in H.
  pose proof (crypt_bytes_spec _ _ dec_body_spec _ _ _ _ _ _ (b ++ repeat 0 n)
     {| off := 0; cap := n |} {| off := n; cap := n |} I) as B.
  cbn [off cap] in B. rewrite app_length, repeat_length in B. fold n in B.
  specialize (B ltac:(lia) ltac:(lia)). cbv zeta in B. rewrite ss_words in B.
  assert (Q : Nat.eqb (qwords v) 0 = false) by (destruct v; reflexivity). rewrite Q in B. cbn [orb] in B.
  destruct (Nat.leb_spec (8 * qwords v) n) as [C|C]; cbn [andb] in B.
  - destruct B as [c1 [I' B]]. unfold Decrypt in H. rewrite B in H. inversion H; subst out.
    split; [cbn [cinv]; eauto|].
    set (F := bytes_of_words _).
    assert (LF : (length F <= n)%nat).
    { unfold F. rewrite bytes_of_words_length, firstn_length. lia. }
    unfold overwrite. cbn [firstn app Nat.add].
    assert (G : forall (X : list Z) Y, (length X <= n)%nat -> skipn n (X ++ Y) = skipn (n - length X) Y).
    { intros X Y HX. rewrite skipn_app, skipn_all2 by lia. reflexivity. }
    rewrite G by exact LF. rewrite skipn_skipn'.
    replace (length F + (n - length F))%nat with n by lia.
    rewrite G by (fold n; lia). fold n. rewrite Nat.sub_diag. reflexivity.
  - unfold Decrypt in H. rewrite B in H. discriminate.
Qed.
Lemma cryptor_run_inv decode calls : forall c c', cinv c -> cryptor_run decode c calls = Some c' -> cinv c'.
Proof.
  induction calls as [|[e text] calls IH]; intros c c' I H; cbn [cryptor_run] in H.
  - inversion H; subst; exact I.
  - destruct e.
    + destruct (Cryptor_Encrypt c text) as [[c1 out]|] eqn:E; [|discriminate].
      apply (IH c1 c'); [|exact H]. apply (cryptor_enc_inv _ _ _ _ I E).
    + destruct (Cryptor_Decrypt decode c text) as [[c1 out]|] eqn:E; [|discriminate].
      apply (IH c1 c'); [|exact H]. apply (cryptor_dec_zeros _ _ _ _ _ I E).
Qed.
