(** * Properties C01-C07: the Threefish cipher (crypter/). *)
From Coq Require Import ZArith List Bool Lia.
From Verif Require Import TfLang TfSpec TfAlgebra CrypterModel CrypterSpec CrypterContract
  CrypterProofs CrypterProofs2 CrypterProofs3 CrypterProofs4.
Import ListNotations.
Open Scope Z_scope.

(** ** C01  Decrypt64 and Encrypt64 are inverse, after any history, for any overlap of windows. *)
Theorem C01_decrypt_inverts_encrypt :
  forall c0 p st ops c mem d s d2,
    created c0 p st -> Forall wf_op ops -> run c0 ops = Some c ->
    wf_op (OpEncrypt64 mem d s) -> wf_op (OpDecrypt64 mem d2 d) ->
    (nw p <= snd s)%nat -> (nw p <= snd d)%nat -> (nw p <= snd d2)%nat ->
    Forall word (region mem (fst s) (nw p)) ->
    exists mem1, Encrypt64 c mem d s = Some (c, mem1)
      /\ Decrypt64 c mem1 d2 d = Some (c, overwrite mem1 (fst d2) (region mem (fst s) (nw p))).
Proof.
  intros c0 p st ops c mem d s d2 C W R W1 W2 Ls Ld Ld2 Hw.
  rewrite (enc64_history _ _ _ _ _ _ _ _ C W R W1).
  destruct (settings p st ops) as [[k t0] t1] eqn:S.
  destruct (Nat.ltb_spec (snd s) (nw p)); [lia|]. destruct (Nat.ltb_spec (snd d) (nw p)); [lia|]. cbn [orb].
  destruct W1 as [Wd Ws]. destruct W2 as [Wd2 _].
  assert (Lr : length (region mem (fst s) (nw p)) = nw p)
    by (unfold region; rewrite firstn_length, skipn_length; lia).
  destruct (tf_dec_enc p k t0 t1 _ (params_created_ok _ _ _ C) Lr Hw) as [DE [_ [EL [_ _]]]].
  assert (ELz : @length Z (threefish_encrypt word64 p k t0 t1 (region mem (fst s) (nw p))) = nw p) by exact EL.
  eexists. split; [reflexivity|].
  rewrite (dec64_history _ _ _ _ _ _ _ _ C W R); [|split; rewrite overwrite_length; lia].
  rewrite S.
  destruct (Nat.ltb_spec (snd d) (nw p)); [lia|]. destruct (Nat.ltb_spec (snd d2) (nw p)); [lia|]. cbn [orb].
  rewrite region_overwrite by (exact EL || lia). rewrite DE. reflexivity.
Qed.
Print Assumptions C01_decrypt_inverts_encrypt.

Theorem C01_encrypt_inverts_decrypt :
  forall c0 p st ops c mem d s d2,
    created c0 p st -> Forall wf_op ops -> run c0 ops = Some c ->
    wf_op (OpDecrypt64 mem d s) -> wf_op (OpEncrypt64 mem d2 d) ->
    (nw p <= snd s)%nat -> (nw p <= snd d)%nat -> (nw p <= snd d2)%nat ->
    Forall word (region mem (fst s) (nw p)) ->
    exists mem1, Decrypt64 c mem d s = Some (c, mem1)
      /\ Encrypt64 c mem1 d2 d = Some (c, overwrite mem1 (fst d2) (region mem (fst s) (nw p))).
Proof.
  intros c0 p st ops c mem d s d2 C W R W1 W2 Ls Ld Ld2 Hw.
  rewrite (dec64_history _ _ _ _ _ _ _ _ C W R W1).
  destruct (settings p st ops) as [[k t0] t1] eqn:S.
  destruct (Nat.ltb_spec (snd s) (nw p)); [lia|]. destruct (Nat.ltb_spec (snd d) (nw p)); [lia|]. cbn [orb].
  destruct W1 as [Wd Ws]. destruct W2 as [Wd2 _].
  assert (Lr : length (region mem (fst s) (nw p)) = nw p)
    by (unfold region; rewrite firstn_length, skipn_length; lia).
  destruct (tf_dec_enc p k t0 t1 _ (params_created_ok _ _ _ C) Lr Hw) as [_ [ED [_ [_ [DL _]]]]].
  assert (DLz : @length Z (threefish_decrypt word64 p k t0 t1 (region mem (fst s) (nw p))) = nw p) by exact DL.
  eexists. split; [reflexivity|].
  rewrite (enc64_history _ _ _ _ _ _ _ _ C W R); [|split; rewrite overwrite_length; lia].
  rewrite S.
  destruct (Nat.ltb_spec (snd d) (nw p)); [lia|]. destruct (Nat.ltb_spec (snd d2) (nw p)); [lia|]. cbn [orb].
  rewrite region_overwrite by (exact DL || lia). rewrite ED. reflexivity.
Qed.
Print Assumptions C01_encrypt_inverts_decrypt.

(** ** C02  The word interface is the Threefish block function of the Skein paper, for the key and
    tweak in force after any history; a window shorter than the block panics. *)
Theorem C02_encrypt64_is_threefish :
  forall c0 p st ops c mem d s k t0 t1,
    created c0 p st -> Forall wf_op ops -> run c0 ops = Some c -> settings p st ops = (k, t0, t1) ->
    wf_op (OpEncrypt64 mem d s) ->
    Encrypt64 c mem d s
    = if (snd s <? nw p)%nat || (snd d <? nw p)%nat then None
      else Some (c, overwrite mem (fst d) (threefish_encrypt word64 p k t0 t1 (region mem (fst s) (nw p)))).
Proof.
  intros c0 p st ops c mem d s k t0 t1 C W R S Wo.
  rewrite (enc64_history _ _ _ _ _ _ _ _ C W R Wo), S. reflexivity.
Qed.
Print Assumptions C02_encrypt64_is_threefish.
Theorem C02_decrypt64_is_threefish :
  forall c0 p st ops c mem d s k t0 t1,
    created c0 p st -> Forall wf_op ops -> run c0 ops = Some c -> settings p st ops = (k, t0, t1) ->
    wf_op (OpDecrypt64 mem d s) ->
    Decrypt64 c mem d s
    = if (snd s <? nw p)%nat || (snd d <? nw p)%nat then None
      else Some (c, overwrite mem (fst d) (threefish_decrypt word64 p k t0 t1 (region mem (fst s) (nw p)))).
Proof.
  intros c0 p st ops c mem d s k t0 t1 C W R S Wo.
  rewrite (dec64_history _ _ _ _ _ _ _ _ C W R Wo), S. reflexivity.
Qed.
Print Assumptions C02_decrypt64_is_threefish.

(** ** C03  Byte blocks.  Every cipher from New and NewSize qualifies (see the two lemmas below). *)
Theorem C03_encrypt_bytes :
  forall c0 p st ops c mem d s k t0 t1,
    created c0 p st -> stateSize c0 = 64 * Z.of_nat (nw p) ->
    Forall wf_op ops -> run c0 ops = Some c -> settings p st ops = (k, t0, t1) ->
    wf_op (OpEncrypt mem d s) -> (8 * nw p <= cap d)%nat -> (8 * nw p <= cap s)%nat ->
    exists c', Encrypt c mem d s
      = Some (c', overwrite mem (off d)
           (bytes_of_words (threefish_encrypt word64 p k t0 t1
                (words_of_bytes (nw p) (region mem (off s) (8 * nw p)))))).
Proof.
  intros c0 p st ops c mem d s k t0 t1 C Sz W R S Wo Cd Cs.
  pose proof (enc_bytes_history _ _ _ _ _ _ _ _ C Sz W R Wo Cd Cs) as H. rewrite S in H. exact H.
Qed.
Print Assumptions C03_encrypt_bytes.

Theorem C03_decrypt_bytes_undoes :
  forall c0 p st ops c mem d s d2,
    created c0 p st -> stateSize c0 = 64 * Z.of_nat (nw p) ->
    Forall wf_op ops -> run c0 ops = Some c -> Forall byte mem ->
    wf_op (OpEncrypt mem d s) -> wf_op (OpDecrypt mem d2 d) ->
    (8 * nw p <= cap d)%nat -> (8 * nw p <= cap s)%nat -> (8 * nw p <= cap d2)%nat ->
    exists c1 mem1 c2, Encrypt c mem d s = Some (c1, mem1)
      /\ Decrypt c1 mem1 d2 d = Some (c2, overwrite mem1 (off d2) (region mem (off s) (8 * nw p))).
Proof.
  intros c0 p st ops c mem d s d2 C Sz W R Bm W1 W2 Cd Cs Cd2.
  pose proof (enc_bytes_history _ _ _ _ _ _ _ _ C Sz W R W1 Cd Cs) as H.
  destruct (settings p st ops) as [[k t0] t1] eqn:S. destruct H as [c1 E].
  set (blk := words_of_bytes (nw p) (region mem (off s) (8 * nw p))) in *.
  exists c1, (overwrite mem (off d) (bytes_of_words (threefish_encrypt word64 p k t0 t1 blk))).
  destruct W1 as [Wd Ws]. destruct W2 as [Wd2 _].
  assert (Br : bytes (region mem (off s) (8 * nw p))) by (apply Forall_firstn', Forall_skipn', Bm).
  assert (Lr : length (region mem (off s) (8 * nw p)) = (8 * nw p)%nat)
    by (unfold region; rewrite firstn_length, skipn_length; lia).
  assert (Lb : length blk = nw p) by apply words_of_bytes_length.
  assert (Wb : Forall word blk) by (apply words_bytes_word; [exact Br | lia]).
  destruct (tf_dec_enc p k t0 t1 blk (params_created_ok _ _ _ C) Lb Wb) as [DE [_ [EL [EW _]]]].
  assert (ELb : length (bytes_of_words (threefish_encrypt word64 p k t0 t1 blk)) = (8 * nw p)%nat)
    by (rewrite bytes_of_words_length; f_equal; exact EL).
  assert (R1 : run c0 (ops ++ [OpEncrypt mem d s]) = Some c1).
  { clear - R E. revert c0 R. induction ops as [|o ops IH]; intros c0 R; cbn [run app] in *.
    - inversion R; subst. cbn [step]. rewrite E. reflexivity.
    - destruct (step c0 o) as [[c' m]|]; [|discriminate]. apply IH, R. }
  assert (S1 : settings p st (ops ++ [OpEncrypt mem d s]) = (k, t0, t1)).
  { unfold settings in *. rewrite fold_left_app, S. reflexivity. }
  assert (W' : Forall wf_op (ops ++ [OpEncrypt mem d s])).
  { apply Forall_app. split; [exact W|]. constructor; [split; assumption|constructor]. }
  set (mem1 := overwrite mem (off d) (bytes_of_words (threefish_encrypt word64 p k t0 t1 blk))) in *.
  assert (L1 : length mem1 = length mem) by (apply overwrite_length; lia).
  pose proof (dec_bytes_history _ _ _ _ _ mem1 d2 d C Sz W' R1) as D.
  rewrite S1 in D. destruct D as [c2 D]; [split; lia | lia | lia |].
  exists c2. split; [exact E|]. rewrite D. do 2 f_equal.
  unfold mem1 at 2. rewrite region_overwrite by (exact ELb || lia).
  assert (RT : words_of_bytes (nw p) (bytes_of_words (threefish_encrypt word64 p k t0 t1 blk))
               = threefish_encrypt word64 p k t0 t1 blk).
  { pose proof (words_bytes_words _ EW) as Q. replace (nw p) with (length (threefish_encrypt word64 p k t0 t1 blk)) at 1 by exact EL. exact Q. }
  rewrite RT, DE. f_equal. apply bytes_words_bytes; assumption.
Qed.
Print Assumptions C03_decrypt_bytes_undoes.

Theorem C03_New_has_full_state_size :
  forall key tw c p, params_of (length key) = Some p -> New key tw = Ret c ->
    stateSize c = 64 * Z.of_nat (nw p) /\ BlockSize c = Z.of_nat (length key).
Proof.
  intros key tw c p P N. pose proof (New_ret key tw p P) as R.
  destruct (tweak_words tw) as [[t0 t1]|]; [|congruence].
  destruct R as [v [c' [<- [E [_ [Ess _]]]]]]. rewrite E in N. inversion N; subst c'.
  rewrite params_nw. split; [exact Ess|]. unfold BlockSize. rewrite Ess.
  apply params_of_inv in P. destruct v; cbn in P; destruct P as [[L Q]|[[L Q]|[L Q]]]; try discriminate Q;
    rewrite L; reflexivity.
Qed.
Print Assumptions C03_New_has_full_state_size.
Theorem C03_NewSize_has_full_state_size :
  forall size c, NewSize size = Ret c ->
    stateSize c = size /\ BlockSize c = size / 8 /\ exists p, params_of (Z.to_nat (size / 8)) = Some p /\ size = 64 * Z.of_nat (nw p).
Proof.
  intros size c N. destruct (NewSize_ret size c N) as [v [E [_ [Ess _]]]].
  split; [exact Ess|]. split; [unfold BlockSize; rewrite Ess; reflexivity|].
  exists (params v). subst size. destruct v; split; reflexivity.
Qed.
Print Assumptions C03_NewSize_has_full_state_size.

(** ** C04  Two histories that leave the same key and tweak in force are indistinguishable: every
    later call returns the same bytes (or panics alike), for every constructor. *)
Theorem C04_history_independence :
  forall c0 p st ops1 ops2 c1 c2 o,
    created c0 p st -> Forall wf_op ops1 -> Forall wf_op ops2 ->
    run c0 ops1 = Some c1 -> run c0 ops2 = Some c2 ->
    settings p st ops1 = settings p st ops2 -> wf_op o ->
    option_map snd (step c1 o) = option_map snd (step c2 o).
Proof. exact histories_agree. Qed.
Print Assumptions C04_history_independence.

(** ** C05  Constructors. *)
Theorem C05_New_accepts_exactly :
  forall key tw,
    match params_of (length key) with
    | None => New key tw = KeySizeError (Z.of_nat (length key))
    | Some p => match tweak_words tw with
                | None => New key tw = Panic
                | Some _ => exists c, New key tw = Ret c
                end
    end.
Proof.
  intros key tw. destruct (params_of (length key)) as [p|] eqn:P.
  - pose proof (New_ret key tw p P) as R. destruct (tweak_words tw) as [[t0 t1]|]; [|exact R].
    destruct R as [v [c [_ [E _]]]]. exists c. exact E.
  - unfold params_of in P. unfold New.
    destruct (Nat.eqb_spec (length key) 32); [discriminate|]. destruct (Nat.eqb_spec (length key) 64); [discriminate|].
    destruct (Nat.eqb_spec (length key) 128); [discriminate|].
    destruct (Z.eqb_spec (Z.of_nat (length key)) 32); [lia|]. destruct (Z.eqb_spec (Z.of_nat (length key)) 64); [lia|].
    destruct (Z.eqb_spec (Z.of_nat (length key)) 128); [lia|]. reflexivity.
Qed.
Print Assumptions C05_New_accepts_exactly.
Theorem C05_New64_accepts_exactly :
  forall key tw,
    match params_of_words (length key) with
    | None => New64 key tw = KeySizeError (Z.of_nat (length key))
    | Some p => match tweak_words tw with
                | None => New64 key tw = Panic
                | Some _ => exists c, New64 key tw = Ret c
                end
    end.
Proof.
  intros key tw. destruct (params_of_words (length key)) as [p|] eqn:P.
  - pose proof (New64_ret key tw p P) as R. destruct (tweak_words tw) as [[t0 t1]|]; [|exact R].
    destruct R as [v [c [_ [E _]]]]. exists c. exact E.
  - unfold params_of_words, params_of in P. unfold New64.
    destruct (Nat.eqb_spec (8 * length key) 32); [discriminate|]. destruct (Nat.eqb_spec (8 * length key) 64); [discriminate|].
    destruct (Nat.eqb_spec (8 * length key) 128); [discriminate|].
    destruct (Z.eqb_spec (Z.of_nat (length key)) 4); [lia|]. destruct (Z.eqb_spec (Z.of_nat (length key)) 8); [lia|].
    destruct (Z.eqb_spec (Z.of_nat (length key)) 16); [lia|]. reflexivity.
Qed.
Print Assumptions C05_New64_accepts_exactly.
Theorem C05_NewSize_accepts_exactly :
  forall size, ((size = 256 \/ size = 512 \/ size = 1024) /\ exists c, NewSize size = Ret c)
            \/ (size <> 256 /\ size <> 512 /\ size <> 1024 /\ NewSize size = KeySizeError size).
Proof.
  intros size. unfold NewSize.
  destruct (Z.eqb_spec size 256) as [E|E]; [left; split; [auto|]|].
  { destruct (newThreefish_nil_spec size V256) as [c [H _]]; [subst; vm_compute; lia|]. exists c. exact H. }
  destruct (Z.eqb_spec size 512) as [E2|E2]; [left; split; [auto|]|].
  { destruct (newThreefish_nil_spec size V512) as [c [H _]]; [subst; vm_compute; lia|]. exists c. exact H. }
  destruct (Z.eqb_spec size 1024) as [E3|E3]; [left; split; [auto|]|].
  { destruct (newThreefish_nil_spec size V1024) as [c [H _]]; [subst; vm_compute; lia|]. exists c. exact H. }
  right. auto.
Qed.
Print Assumptions C05_NewSize_accepts_exactly.
Theorem C05_New_and_New64_agree :
  forall kb tw p t0 t1 c1 c2,
    params_of (length kb) = Some p -> tweak_words tw = Some (t0, t1) ->
    New kb tw = Ret c1 -> New64 (words_of_bytes (nw p) kb) tw = Ret c2 ->
    forall mem d s,
      (wf_op (OpEncrypt64 mem d s) ->
       option_map snd (Encrypt64 c1 mem d s) = option_map snd (Encrypt64 c2 mem d s))
      /\ (wf_op (OpDecrypt64 mem d s) ->
          option_map snd (Decrypt64 c1 mem d s) = option_map snd (Decrypt64 c2 mem d s)).
Proof.
  intros kb tw p t0 t1 c1 c2 P T N1 N2 mem d s.
  assert (C1 : created c1 p (words_of_bytes (nw p) kb, t0, t1)) by (eapply by_New; eassumption).
  assert (P2 : params_of_words (length (words_of_bytes (nw p) kb)) = Some p).
  { rewrite words_of_bytes_length. apply params_of_inv in P.
    destruct P as [[_ ->]|[[_ ->]|[_ ->]]]; reflexivity. }
  assert (C2 : created c2 p (words_of_bytes (nw p) kb, t0, t1)) by (eapply by_New64; eassumption).
  split; intros Wo.
  - rewrite (enc64_history _ _ _ [] _ _ _ _ C1 (Forall_nil _) eq_refl Wo).
    rewrite (enc64_history _ _ _ [] _ _ _ _ C2 (Forall_nil _) eq_refl Wo).
    cbn [settings fold_left]. destruct (_ || _)%bool; reflexivity.
  - rewrite (dec64_history _ _ _ [] _ _ _ _ C1 (Forall_nil _) eq_refl Wo).
    rewrite (dec64_history _ _ _ [] _ _ _ _ C2 (Forall_nil _) eq_refl Wo).
    cbn [settings fold_left]. destruct (_ || _)%bool; reflexivity.
Qed.
Print Assumptions C05_New_and_New64_agree.

(** ** C06  Refuted: the byte interface of New64's ciphers. *)
(** BlockSize is an eighth of the documented block size. *)
Theorem C06_New64_blocksize_refuted :
  forall key tw c, New64 key tw = Ret c ->
    BlockSize c = Z.of_nat (length key) /\ BlockSize c <> 8 * Z.of_nat (length key).
Proof.
  intros key tw c N. pose proof (C05_New64_accepts_exactly key tw) as A.
  destruct (params_of_words (length key)) as [p|] eqn:P; [|congruence].
  pose proof (New64_ret key tw p P) as R. destruct (tweak_words tw) as [[t0 t1]|]; [|congruence].
  destruct R as [v [c' [_ [E [_ [Ess [Hk _]]]]]]]. rewrite E in N. inversion N; subst c'.
  unfold BlockSize. rewrite Ess, Hk.
  rewrite (Z.mul_comm 8), Z.div_mul by lia. pose proof (qwords_pos v). lia.
Qed.
Print Assumptions C06_New64_blocksize_refuted.
(** With a 4-word key, Encrypt does nothing at all: the destination keeps its old bytes. *)
Theorem C06_New64_256_encrypt_is_noop_refuted :
  forall key tw c mem d s, length key = 4%nat -> New64 key tw = Ret c -> wf_op (OpEncrypt mem d s) ->
    exists c', Encrypt c mem d s = Some (c', mem).
Proof.
  intros key tw c mem d s L N [Wd Ws].
  assert (P : params_of_words (length key) = Some tf256) by (rewrite L; reflexivity).
  pose proof (New64_ret key tw _ P) as R. destruct (tweak_words tw) as [[t0 t1]|]; [|congruence].
  destruct R as [v [c' [Ev [E I]]]]. rewrite E in N. inversion N; subst c'.
  assert (v = V256) by (destruct v; try reflexivity; discriminate Ev). subst v.
  pose proof (crypt_bytes_spec _ _ enc_body_spec _ _ _ _ _ _ mem d s I Ws Wd) as B. cbv zeta in B.
  change (Z.to_nat (8 * Z.of_nat (qwords V256) / 64)) with 0%nat in B. cbn [Nat.eqb orb] in B.
  destruct B as [c1 [_ B]]. exists c1. unfold Encrypt. rewrite B. cbn [firstn].
  unfold overwrite. cbn. rewrite Nat.add_0_r, firstn_skipn. reflexivity.
Qed.
Print Assumptions C06_New64_256_encrypt_is_noop_refuted.
(** In general only the first len(key)/8 words are read, and only those of the result are written. *)
Theorem C06_New64_bytes_exact :
  forall key tw c p t0 t1 mem d s,
    params_of_words (length key) = Some p -> tweak_words tw = Some (t0, t1) -> New64 key tw = Ret c ->
    wf_op (OpEncrypt mem d s) -> (nw p <= cap d)%nat -> (nw p <= cap s)%nat ->
    let u := (nw p / 8)%nat in
    exists c', Encrypt c mem d s
      = Some (c', overwrite mem (off d)
            (bytes_of_words (firstn u (threefish_encrypt word64 p key t0 t1
               (words_of_bytes u (region mem (off s) (8 * u)) ++ repeat 0 (nw p - u)))))).
Proof.
  intros key tw c p t0 t1 mem d s P T N [Wd Ws] Cd Cs u.
  pose proof (New64_ret key tw _ P) as R. rewrite T in R.
  destruct R as [v [c' [<- [E I]]]]. rewrite E in N. inversion N; subst c'.
  pose proof (crypt_bytes_spec _ _ enc_body_spec _ _ _ _ _ _ mem d s I Ws Wd) as B. cbv zeta in B.
  assert (Eu : Z.to_nat (8 * Z.of_nat (qwords v) / 64) = u) by (unfold u; destruct v; reflexivity).
  rewrite Eu in B. rewrite params_nw in *.
  assert (8 * u <= qwords v)%nat by (unfold u; destruct v; cbn; lia).
  destruct (Nat.leb_spec (8 * u) (cap s)); [|lia]. destruct (Nat.leb_spec (8 * u) (cap d)); [|lia].
  rewrite orb_true_r in B. destruct B as [c1 [_ B]]. exists c1. exact B.
Qed.
Print Assumptions C06_New64_bytes_exact.

(** ** C07  Refuted: Cryptor. *)
(** A key text of any other length leaves no cipher: both methods panic. *)
Theorem C07_wrong_key_length_panics_refuted :
  forall keytext bits decode text, params_of (length keytext) = None ->
    Cryptor_Encrypt (Cryptor_New keytext bits) text = None
    /\ Cryptor_Decrypt decode (Cryptor_New keytext bits) text = None.
Proof.
  intros keytext bits decode text P. unfold Cryptor_New.
  pose proof (C05_New_accepts_exactly keytext (Some cryptor_tweak)) as A. rewrite P in A. rewrite A.
  split; reflexivity.
Qed.
Print Assumptions C07_wrong_key_length_panics_refuted.
(** After any history of calls, Decrypt returns only zero bytes, whatever the key, the text and the
    base64 decoder. *)
Theorem C07_decrypt_returns_zeros_refuted :
  forall decode keytext bits calls c text c' out,
    cryptor_run decode (Cryptor_New keytext bits) calls = Some c ->
    Cryptor_Decrypt decode c text = Some (c', out) ->
    out = repeat 0 (length (decode text)).
Proof.
  intros decode keytext bits calls c text c' out R H.
  apply (cryptor_dec_zeros decode c text c' out); [|exact H].
  apply (cryptor_run_inv decode calls _ _ (cryptor_new_inv keytext bits) R).
Qed.
Print Assumptions C07_decrypt_returns_zeros_refuted.
(** Hence no text with a non-zero byte survives Encrypt followed by Decrypt. *)
Theorem C07_roundtrip_refuted :
  forall decode keytext bits text c1 enc c2 out,
    Cryptor_Encrypt (Cryptor_New keytext bits) text = Some (c1, enc) ->
    Cryptor_Decrypt decode c1 enc = Some (c2, out) ->
    (exists x, List.In x text /\ x <> 0) -> out <> text.
Proof.
  intros decode keytext bits text c1 enc c2 out HE HD [x [Hx Hn]] Eq.
  apply (C07_decrypt_returns_zeros_refuted decode keytext bits [(true, text)]) in HD.
  - subst out. rewrite <- Eq in Hx. apply repeat_spec in Hx. contradiction.
  - cbn [cryptor_run]. rewrite HE. reflexivity.
Qed.
Print Assumptions C07_roundtrip_refuted.

(** ** Non-vacuity: the repository's own test vectors meet the hypotheses. *)
Definition ret (o : outcome cipher) : cipher :=
  match o with Ret c => c | _ => zero_cipher 0 V256 end.
Definition key256_01 : list Z := [0x1716151413121110; 0x1F1E1D1C1B1A1918; 0x2726252423222120; 0x2F2E2D2C2B2A2928].
Definition tweak_01 : option (list Z) := Some [0x0706050403020100; 0x0F0E0D0C0B0A0908].
Definition in256_01 : list Z := [0xF8F9FAFBFCFDFEFF; 0xF0F1F2F3F4F5F6F7; 0xE8E9EAEBECEDEEEF; 0xE0E1E2E3E4E5E6E7].

Example created_from_New64 :
  created (ret (New64 key256_01 tweak_01)) tf256 (key256_01, 0x0706050403020100, 0x0F0E0D0C0B0A0908).
Proof. apply (by_New64 key256_01 tweak_01); [reflexivity|reflexivity|vm_compute; reflexivity]. Qed.
(** A history with re-keying, then in-place encryption; the first vector of crypter_test.go:13-22. *)
Example history_example :
  let ops := [OpSetKey [0;0;0;0]; OpSetTweak (Some [0;0]); OpEncrypt64 [1;2;3;4;5] (0, 4)%nat (1, 4)%nat] in
  exists c, run (ret (New64 key256_01 tweak_01)) ops = Some c
    /\ settings tf256 (key256_01, 0x0706050403020100, 0x0F0E0D0C0B0A0908) ops = ([0;0;0;0], 0, 0)
    /\ Forall wf_op ops
    /\ option_map snd (Encrypt64 c [0;0;0;0] (0, 4)%nat (0, 4)%nat)
       = Some [0x94EEEA8B1F2ADA84; 0xADF103313EAE6670; 0x952419A1F4B16D53; 0xD83F13E63C9F6B11].
Proof.
  eexists. split; [vm_compute; reflexivity|]. split; [reflexivity|]. split.
  - repeat constructor; cbn; lia.
  - vm_compute. reflexivity.
Qed.
Example New_bytes_example :
  exists c, New (repeat 0 64) (Some [0; 0]) = Ret c /\ stateSize c = 64 * Z.of_nat (nw tf512)
    /\ option_map (fun r => firstn 8 (snd r)) (Encrypt c (repeat 0 70) {| off := 3; cap := 64 |} {| off := 0; cap := 70 |})
       = Some [0; 0; 0; 0xB1; 0xA2; 0xBB; 0xC6; 0xEF].
Proof. eexists. split; [vm_compute; reflexivity|]. split; vm_compute; reflexivity. Qed.
Example cryptor_example :
  exists c1 enc c2 out, Cryptor_Encrypt (Cryptor_New (repeat 65 32) 256) (repeat 66 32) = Some (c1, enc)
    /\ Cryptor_Decrypt (fun _ => repeat 7 32) (Cryptor_New (repeat 65 32) 256) enc = Some (c2, out)
    /\ out = repeat 0 32.
Proof. do 4 eexists. split; [vm_compute; reflexivity|]. split; vm_compute; reflexivity. Qed.
