(** * The cipher object: invariant over call histories. *)
From Coq Require Import ZArith List Bool Lia.
From Verif Require Import TfLang TfSpec TfAlgebra TfSym TfProofs TfConform CrypterModel CrypterSpec
  CrypterProofs CrypterProofs2.
Import ListNotations.
Open Scope Z_scope.

Definition params (v : variant) : tf_params := match v with V256 => tf256 | V512 => tf512 | V1024 => tf1024 end.
Lemma params_nw v : nw (params v) = qwords v. Proof. destruct v; reflexivity. Qed.
Lemma params_okv v : params_ok (params v) = true. Proof. destruct v; reflexivity. Qed.
Lemma qwords_pos v : (0 < qwords v)%nat. Proof. destruct v; cbn; lia. Qed.

Lemma enc_body_spec v input xk xt :
  length input = qwords v -> length xk = (qwords v + 1)%nat -> length xt = 3%nat ->
  run_body (qwords v) (enc_body v) input xk xt = enc_ext word64 (params v) xk xt input.
Proof.
  intros Li Lk Lt. destruct v.
  - apply encrypt256_conforms; assumption.
  - apply encrypt512_conforms; assumption.
  - apply encrypt1024_conforms; assumption.
Qed.
Lemma dec_body_spec v input xk xt :
  length input = qwords v -> length xk = (qwords v + 1)%nat -> length xt = 3%nat ->
  run_body (qwords v) (dec_body v) input xk xt = dec_ext word64 (params v) xk xt input.
Proof.
  intros Li Lk Lt. destruct v.
  - apply decrypt256_conforms; assumption.
  - apply decrypt512_conforms; assumption.
  - apply decrypt1024_conforms; assumption.
Qed.
Lemma enc_alias v : alias_ok (qwords v) (length (enc_body v) - qwords v) (enc_body v) = true.
Proof. destruct v; vm_compute; reflexivity. Qed.
Lemma dec_alias v : alias_ok (qwords v) (length (dec_body v) - qwords v) (dec_body v) = true.
Proof. destruct v; vm_compute; reflexivity. Qed.

(** The invariant: what the object holds after any history. *)
Definition Inv (c : cipher) (v : variant) (ss : Z) (k : list Z) (t0 t1 : Z) : Prop :=
  impl c = v /\ stateSize c = ss /\ length k = qwords v
  /\ expandedKey c = extend_key word64 k /\ expandedTweak c = extend_tweak word64 t0 t1
  /\ length (tmpData1 c) = qwords v
  /\ skipn (Z.to_nat (ss / 64)) (tmpData1 c) = repeat 0 (qwords v - Z.to_nat (ss / 64))
  /\ (Z.to_nat (ss / 64) <= qwords v)%nat.

Lemma ekl (k : list Z) n : length k = n -> @length Z (extend_key word64 k) = (n + 1)%nat.
Proof. intros <-. unfold extend_key. exact (app_length k _). Qed.

Section Crypt.
  Variables (body : variant -> list stmt) (f : tf_params -> list Z -> list Z -> list Z -> list Z).
  Hypothesis body_spec : forall v input xk xt,
    length input = qwords v -> length xk = (qwords v + 1)%nat -> length xt = 3%nat ->
    run_body (qwords v) (body v) input xk xt = f (params v) xk xt input.
  Hypothesis body_alias : forall v, alias_ok (qwords v) (length (body v) - qwords v) (body v) = true.

  Lemma crypt_words_spec c v ss k t0 t1 mem dst src :
    Inv c v ss k t0 t1 ->
    (fst src + snd src <= length mem)%nat -> (fst dst + snd dst <= length mem)%nat ->
    crypt_words body c mem dst src
    = if (snd src <? qwords v)%nat || (snd dst <? qwords v)%nat then None
      else Some (c, overwrite mem (fst dst)
                      (f (params v) (extend_key word64 k) (extend_tweak word64 t0 t1)
                         (region mem (fst src) (qwords v)))).
  Proof.
    intros [Hv [Hss [Hk [Hxk [Hxt _]]]]] Ls Ld. unfold crypt_words. rewrite Hv, Hxk, Hxt.
    destruct (Nat.ltb_spec (snd src) (qwords v)); cbn [orb]; [reflexivity|].
    destruct (Nat.ltb_spec (snd dst) (qwords v)); [reflexivity|].
    do 2 f_equal. rewrite (alias_sound _ _ _ _ _ _ _ _ (body_alias v)) by lia.
    f_equal. apply body_spec.
    - unfold region. rewrite firstn_length, skipn_length. lia.
    - apply ekl; exact Hk.
    - reflexivity.
  Qed.

  Definition load_block (v : variant) (u : nat) (mem : list Z) (o : nat) : list Z :=
    words_of_bytes u (region mem o (8 * u)) ++ repeat 0 (qwords v - u).

  Lemma run_body_length n b i k t : length (run_body n b i k t) = n.
  Proof. unfold run_body, outputs. rewrite map_length, seq_length. reflexivity. Qed.
  Lemma words_of_bytes_length n b : length (words_of_bytes n b) = n.
  Proof. revert b. induction n as [|n IH]; intros b; cbn; auto. Qed.

  Lemma crypt_bytes_spec c v ss k t0 t1 mem dst src :
    Inv c v ss k t0 t1 ->
    (off src + cap src <= length mem)%nat -> (off dst + cap dst <= length mem)%nat ->
    let u := Z.to_nat (ss / 64) in
    if (Nat.eqb u 0 || ((8 * u <=? cap src) && (8 * u <=? cap dst))%nat)%bool
    then exists c', Inv c' v ss k t0 t1
      /\ crypt_bytes body c mem dst src
         = Some (c', overwrite mem (off dst)
                      (bytes_of_words (firstn u (f (params v) (extend_key word64 k) (extend_tweak word64 t0 t1)
                         (load_block v u mem (off src))))))
    else crypt_bytes body c mem dst src = None.
  Proof.
    intros [Hv [Hss [Hk [Hxk [Hxt [Hl [Hz Hu]]]]]]] Ls Ld.
    unfold crypt_bytes. rewrite Hss, Hv, Hxk, Hxt. cbv zeta. set (u := Z.to_nat (ss / 64)) in *. 
    rewrite load_words_spec by lia. cbn [firstn app]. rewrite (Nat.add_0_l u).
    destruct (Nat.eqb_spec u 0) as [U0|U0]; cbn [orb].
    - rewrite U0 in *. cbn [seq map app]. cbn [store_words].
      eexists. split; [|f_equal; f_equal; unfold bytes_of_words; cbn [firstn flat_map];
        rewrite <- (blit_nil mem (off dst)) at 1; reflexivity].
      unfold Inv; cbn [impl stateSize expandedKey expandedTweak tmpData1]. fold u. rewrite U0.
      repeat split; auto.
    - destruct (Nat.leb_spec (8 * u) (cap src)) as [Cs|Cs]; cbn [andb]; [|reflexivity].
      rewrite words_region by lia. cbn [Nat.add]. rewrite Hz.
      fold (load_block v u mem (off src)).
      assert (Lb : length (load_block v u mem (off src)) = qwords v)
        by (unfold load_block; rewrite app_length, words_of_bytes_length, repeat_length; lia).
      assert (S : (off dst + 8 * (0 + u) <= length mem)%nat \/ (cap dst < 8 * u)%nat) by lia.
      destruct (Nat.leb_spec (8 * u) (cap dst)) as [Cd|Cd].
      + rewrite store_words_spec by lia. cbn [Nat.add].
        destruct (Nat.eqb_spec u 0); [contradiction|]. cbn [orb].
        destruct (Nat.leb_spec (8 * u) (cap dst)); [|lia].
        eexists. split; [|f_equal; f_equal].
        2:{ unfold blit, overwrite. rewrite Nat.mul_0_r, Nat.add_0_r.
            rewrite body_spec; [|exact Lb|apply ekl; exact Hk|reflexivity].
            assert (E : map (fun j => nth j (f (params v) (extend_key word64 k) (extend_tweak word64 t0 t1)
                         (load_block v u mem (off src))) 0) (seq 0 u) =
                   firstn u (f (params v) (extend_key word64 k) (extend_tweak word64 t0 t1)
                         (load_block v u mem (off src)))).
            { assert (LF : length (f (params v) (extend_key word64 k) (extend_tweak word64 t0 t1)
                         (load_block v u mem (off src))) = qwords v).
              { rewrite <- body_spec; [|exact Lb|apply ekl; exact Hk|reflexivity].
                apply run_body_length. }
              set (F := f _ _ _ _) in *.
              rewrite <- (map_nth_seq (firstn u F) 0 u) by (rewrite firstn_length; lia).
              apply map_ext_in. intros j Hj. apply in_seq in Hj. symmetry. apply nth_firstn_lt. lia. }
            rewrite E. reflexivity. }
        unfold Inv; cbn [impl stateSize expandedKey expandedTweak tmpData1]. fold u.
        repeat split; auto. unfold load_block.
        rewrite skipn_app, words_of_bytes_length, Nat.sub_diag. cbn [skipn].
        rewrite skipn_all2 by (rewrite words_of_bytes_length; lia). reflexivity.
      + (* the store panics *)
        clear S.
        assert (G : forall n i m, (n + i = u)%nat -> (0 < n)%nat ->
           store_words n i m dst (run_body (qwords v) (body v) (load_block v u mem (off src))
              (extend_key word64 k) (extend_tweak word64 t0 t1)) = None).
        { induction n as [|n IH]; intros i m E Hn; [lia|]. cbn [store_words].
          destruct (Nat.leb_spec (i * 8 + 8) (cap dst)); [|reflexivity].
          apply IH; lia. }
        rewrite G by lia. reflexivity.
  Qed.
End Crypt.

Lemma SetKey_spec c v ss k t0 t1 key :
  Inv c v ss k t0 t1 ->
  if (length key <? qwords v)%nat then SetKey c key = None
  else exists c', SetKey c key = Some c' /\ Inv c' v ss (firstn (qwords v) key) t0 t1.
Proof.
  intros [Hv [Hss [Hk [Hxk [Hxt [Hl [Hz Hu]]]]]]]. unfold SetKey.
  rewrite (setKey_spec (qwords v)); [|rewrite Hxk; apply ekl; exact Hk|apply qwords_pos].
  destruct (Nat.ltb_spec (length key) (qwords v)); [reflexivity|].
  eexists. split; [reflexivity|]. unfold Inv; cbn. repeat split; auto.
  rewrite firstn_length. lia.
Qed.
Lemma SetTweak_spec c v ss k t0 t1 tw :
  Inv c v ss k t0 t1 ->
  match tw with
  | None => SetTweak c tw = Some c
  | Some (a :: b :: _) => exists c', SetTweak c tw = Some c' /\ Inv c' v ss k a b
  | Some _ => SetTweak c tw = None
  end.
Proof.
  intros [Hv [Hss [Hk [Hxk [Hxt [Hl [Hz Hu]]]]]]]. unfold SetTweak.
  rewrite setTweak_spec by (rewrite Hxt; reflexivity).
  destruct tw as [[|a [|b tw]]|]; try reflexivity.
  - eexists. split; [reflexivity|]. unfold Inv; cbn. repeat split; auto.
  - destruct c. reflexivity.
Qed.

(** Constructors establish the invariant. *)
Lemma zero_tweak : repeat 0 3 = extend_tweak word64 0 0.
Proof. reflexivity. Qed.
Lemma zero_key v : set_nth (qwords v) KEY_SCHEDULE_CONST (repeat 0 (qwords v + 1)) = extend_key word64 (repeat 0 (qwords v)).
Proof. destruct v; vm_compute; reflexivity. Qed.

Lemma words_map kb n : (8 * n <= length kb)%nat ->
  map (fun i => uint64le (skipn (i * 8) kb)) (seq 0 n) = words_of_bytes n kb.
Proof.
  intros L. pose proof (words_region n 0 kb) as H. cbn [Nat.add] in H. rewrite H by lia.
  unfold region. cbn [skipn]. clear H.
  revert kb L. induction n as [|n IH]; intros kb L; [reflexivity|].
  cbn [words_of_bytes]. f_equal.
  - f_equal. rewrite firstn_firstn. f_equal. lia.
  - rewrite <- (IH (skipn 8 kb)) by (rewrite skipn_length; lia).
    f_equal. replace (8 * S n)%nat with (8 + 8 * n)%nat by lia.
    rewrite skipn_firstn_comm. f_equal. lia.
Qed.

Lemma newThreefish_spec ss v key tw :
  (8 * qwords v <= length key)%nat -> (Z.to_nat (ss / 64) <= qwords v)%nat ->
  match tweak_words tw with
  | None => newThreefish ss v (Some key) tw = Panic
  | Some (t0, t1) => exists c, newThreefish ss v (Some key) tw = Ret c
                     /\ Inv c v ss (words_of_bytes (qwords v) key) t0 t1
  end.
Proof.
  intros L Hu. unfold newThreefish. cbv zeta. cbn [zero_cipher expandedTweak expandedKey tmpData1 tmpData2].
  rewrite setTweak_spec by reflexivity.
  destruct (Nat.ltb_spec (length key) (8 * qwords v)); [lia|].
  rewrite zero_key, (setKey_spec (qwords v)); [|apply ekl, repeat_length|apply qwords_pos].
  rewrite words_map by lia.
  assert (E : firstn (qwords v) (words_of_bytes (qwords v) key ++ [0]) = words_of_bytes (qwords v) key).
  { rewrite firstn_app, words_of_bytes_length, Nat.sub_diag. cbn. rewrite app_nil_r. apply firstn_all2.
    rewrite words_of_bytes_length. lia. }
  rewrite E, app_length, words_of_bytes_length.
  destruct (Nat.ltb_spec (qwords v + length [0]) (qwords v)); [lia|].
  assert (Z0 : forall n m, skipn m (repeat 0 n) = repeat 0 (n - m))
    by (intros n; induction n; intros [|m]; cbn; auto).
  destruct tw as [[|a [|b tw]]|]; cbn [tweak_words]; try reflexivity;
    eexists; (split; [reflexivity|]); unfold Inv; cbn; rewrite ?repeat_length, ?words_of_bytes_length;
    repeat split; auto.
Qed.
Lemma newThreefish_nil_spec ss v :
  (Z.to_nat (ss / 64) <= qwords v)%nat ->
  exists c, newThreefish ss v None None = Ret c /\ Inv c v ss (repeat 0 (qwords v)) 0 0.
Proof.
  intros Hu. unfold newThreefish. cbn [setTweak].
  assert (Z0 : forall n m, skipn m (repeat 0 n) = repeat 0 (n - m))
    by (intros n; induction n; intros [|m]; cbn; auto).
  eexists. split; [reflexivity|]. unfold Inv; cbn; rewrite ?repeat_length; repeat split; auto. apply zero_key.
Qed.
Lemma newThreefish_64_spec ss v key tw :
  length key = qwords v -> (Z.to_nat (ss / 64) <= qwords v)%nat ->
  match tweak_words tw with
  | None => newThreefish_64 ss v key tw = Panic
  | Some (t0, t1) => exists c, newThreefish_64 ss v key tw = Ret c /\ Inv c v ss key t0 t1
  end.
Proof.
  intros L Hu. unfold newThreefish_64. cbv zeta. cbn [zero_cipher expandedTweak expandedKey tmpData1 tmpData2].
  rewrite setTweak_spec by reflexivity.
  rewrite zero_key, (setKey_spec (qwords v)); [|apply ekl, repeat_length|apply qwords_pos].
  rewrite firstn_all2 by lia.
  destruct (Nat.ltb_spec (length key) (qwords v)); [lia|].
  assert (Z0 : forall n m, skipn m (repeat 0 n) = repeat 0 (n - m))
    by (intros n; induction n; intros [|m]; cbn; auto).
  destruct tw as [[|a [|b tw]]|]; cbn [tweak_words]; try reflexivity;
    eexists; (split; [reflexivity|]); unfold Inv; cbn; rewrite ?repeat_length, ?words_of_bytes_length;
    repeat split; auto.
Qed.
