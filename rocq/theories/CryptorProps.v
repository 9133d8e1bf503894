(** * Properties of the text encryptor (crypter/cmd/crypt.go). *)
From Coq Require Import String ZArith List Bool Lia.
From Verif Require Import TfSpec CrypterModel CrypterSpec CrypterContract CrypterProofs CrypterProofs2 CrypterProofs3 CrypterProofs4.
From Verif Require Import Base64Spec.
Import ListNotations.
Open Scope Z_scope.

(** ** Base64 *)
Lemma byte_cases (P : Z -> bool) :
  forallb P (map Z.of_nat (seq 0 256)) = true -> forall x, byte x -> P x = true.
Proof.
  intros H x B. rewrite forallb_forall in H. apply H. apply in_map_iff. exists (Z.to_nat x).
  unfold byte in B. split; [lia|]. apply in_seq. lia.
Qed.
Lemma b64_char_digit x : 0 <= x < 64 -> b64_char x = nth (Z.to_nat x) url_alphabet 0.
Proof.
  intros H. assert (A : forallb (fun x => b64_char x =? nth (Z.to_nat x) url_alphabet 0) (map Z.of_nat (seq 0 64)) = true)
    by (vm_compute; reflexivity).
  rewrite forallb_forall in A. apply Z.eqb_eq, A, in_map_iff. exists (Z.to_nat x). split; [lia|]. apply in_seq. lia.
Qed.
Definition parts (a : Z) : bool :=
  match byte_bits a with
  | [a7; a6; a5; a4; a3; a2; a1; a0] =>
      (number [a7; a6; a5; a4; a3; a2] =? a / 4)
      && (16 * number [a1; a0] =? a mod 4 * 16) && (number [a7; a6; a5; a4] =? a / 16)
      && (4 * number [a3; a2; a1; a0] =? a mod 16 * 4) && (number [a7; a6] =? a / 64)
      && (number [a5; a4; a3; a2; a1; a0] =? a mod 64)
  | _ => false
  end.
Lemma parts_ok a : byte a -> parts a = true.
Proof. apply byte_cases. vm_compute. reflexivity. Qed.
Lemma six_bound a b c d e f : 0 <= number [a; b; c; d; e; f] < 64.
Proof. destruct a, b, c, d, e, f; vm_compute; split; congruence. Qed.
Lemma split24 a b c d e f : number [a; b; c; d; e; f] = 16 * number [a; b] + number [c; d; e; f].
Proof. destruct a, b, c, d, e, f; reflexivity. Qed.
Lemma split42 a b c d e f : number [a; b; c; d; e; f] = 4 * number [a; b; c; d] + number [e; f].
Proof. destruct a, b, c, d, e, f; reflexivity. Qed.

Definition digit (g : list bool) : Z := nth (Z.to_nat (number g)) url_alphabet 0.
Lemma sixes_more n m bs : (length bs <= n)%nat -> (length bs <= m)%nat -> sixes n bs = sixes m bs.
Proof.
  revert m bs. induction n as [|n IH]; intros m bs Hn Hm.
  - destruct bs; [|cbn in Hn; lia]. destruct m; reflexivity.
  - destruct bs as [|b bs]; [destruct m; reflexivity|]. destruct m as [|m]; [cbn in Hm; lia|].
    cbn [sixes]. f_equal. apply IH; rewrite skipn_length; cbn [length] in *; lia.
Qed.
Lemma flat_bits_length b : length (flat_map byte_bits b) = (8 * length b)%nat.
Proof. induction b as [|x b IH]; [reflexivity|]. cbn [flat_map]. rewrite app_length, IH. cbn [byte_bits map length]. lia. Qed.
Lemma mod3 n : Nat.modulo (S (S (S n))) 3 = Nat.modulo n 3.
Proof. replace (S (S (S n))) with (n + 1 * 3)%nat by lia. apply Nat.mod_add. discriminate. Qed.

Ltac use_parts a :=
  match goal with H : byte a |- _ => pose proof (parts_ok a H) as Parts; unfold parts in Parts;
    destruct (byte_bits a) as [|?x7 [|?x6 [|?x5 [|?x4 [|?x3 [|?x2 [|?x1 [|?x0 [|? ?]]]]]]]]] eqn:?; try discriminate Parts;
    rewrite !andb_true_iff, !Z.eqb_eq in Parts; destruct Parts as [[[[[? ?] ?] ?] ?] ?]
  end.
Lemma number2f a b : number [a; b; false; false; false; false] = 16 * number [a; b].
Proof. destruct a, b; reflexivity. Qed.
Lemma number4f a b c d : number [a; b; c; d; false; false] = 4 * number [a; b; c; d].
Proof. destruct a, b, c, d; reflexivity. Qed.

Lemma sixes6 n a b c d e f r : sixes (S n) (a :: b :: c :: d :: e :: f :: r) = [a; b; c; d; e; f] :: sixes n r.
Proof. reflexivity. Qed.
Lemma sixes2 n a b : sixes (S n) [a; b] = [[a; b; false; false; false; false]].
Proof. destruct n; reflexivity. Qed.
Lemma sixes4 n a b c d : sixes (S n) [a; b; c; d] = [[a; b; c; d; false; false]].
Proof. destruct n; reflexivity. Qed.
Lemma char6 x a b c d e f : number [a; b; c; d; e; f] = x -> b64_char x = digit [a; b; c; d; e; f].
Proof. intros <-. apply b64_char_digit, six_bound. Qed.
Lemma base64url_eq b n : (8 * length b <= n)%nat ->
  base64url b = map digit (sixes n (flat_map byte_bits b))
    ++ repeat 61 (match Nat.modulo (length b) 3 with 1%nat => 2%nat | 2%nat => 1%nat | _ => 0%nat end).
Proof.
  intros H. unfold base64url. cbv zeta. f_equal. unfold digit.
  rewrite (sixes_more (length (flat_map byte_bits b)) n); rewrite ?flat_bits_length; trivial.
Qed.
(** The model's encoder (Go's base64.URLEncoding) writes base64url texts. *)
Lemma b64_is_base64url : forall b, Forall byte b -> b64_encode b = base64url b.
Proof.
  unfold b64_encode. intros b. remember (S (length b)) as n eqn:En.
  assert (L : (length b < n)%nat) by lia. clear En. revert b L.
  induction n as [|n IH]; intros b L H; [lia|].
  destruct b as [|a [|b [|c r]]]; cbn [b64_encode_go].
  - reflexivity.
  - inversion H; subst. rewrite (base64url_eq _ 10) by (cbn; lia). cbn [flat_map length]. use_parts a.
    cbn [app]. rewrite sixes6, sixes2. cbn [map app repeat Nat.modulo Nat.divmod Nat.sub fst snd].
    f_equal; [apply char6; eassumption|]. f_equal. apply char6; rewrite number2f; lia.
  - inversion H as [|? ? ? H']; subst. inversion H'; subst.
    rewrite (base64url_eq _ 20) by (cbn; lia). cbn [flat_map length]. use_parts a. use_parts b.
    cbn [app]. rewrite !sixes6, sixes4. cbn [map app repeat Nat.modulo Nat.divmod Nat.sub fst snd].
    f_equal; [apply char6; eassumption|]. f_equal; [apply char6; rewrite split24; lia|].
    f_equal. apply char6; rewrite number4f; lia.
  - inversion H as [|? ? ? H']; subst. inversion H' as [|? ? ? H'']; subst. inversion H''; subst.
    rewrite IH by (cbn [length] in *; auto; lia).
    rewrite (base64url_eq r (8 * length r)), (base64url_eq _ (S (S (S (S (8 * length r + 24)))))) by (cbn [length]; lia).
    cbn [flat_map length]. rewrite mod3. use_parts a. use_parts b. use_parts c.
    cbn [app]. rewrite !sixes6. cbn [map app].
    rewrite (sixes_more (8 * length r + 24) (8 * length r)) by (rewrite flat_bits_length; lia).
    f_equal; [apply char6; eassumption|]. f_equal; [apply char6; rewrite split24; lia|].
    f_equal; [apply char6; rewrite split42; lia|]. f_equal. apply char6; eassumption.
Qed.

(** ** C70  Cryptor.Encrypt. *)
(** Every Cryptor call leaves key and tweak alone. *)
Definition keeps (p : tf_params) (st : list Z * Z * Z) (c0 : cipher) (c : Cryptor) : Prop :=
  exists ci ops, c = Some ci /\ Forall wf_op ops /\ run c0 ops = Some ci /\ settings p st ops = st.
Lemma run_snoc ops : forall c c1 o c2 m, run c ops = Some c1 -> step c1 o = Some (c2, m) -> run c (ops ++ [o]) = Some c2.
Proof.
  induction ops as [|o' ops IH]; intros c c1 o c2 m H E; cbn [run app] in *.
  - inversion H; subst. rewrite E. reflexivity.
  - destruct (step c o') as [[c' m']|]; [|discriminate]. eapply IH; eassumption.
Qed.
Lemma keeps_step p st c0 ci ops o ci' m : Forall wf_op ops -> run c0 ops = Some ci -> settings p st ops = st ->
  wf_op o -> set1 p st o = st -> step ci o = Some (ci', m) -> keeps p st c0 (Some ci').
Proof.
  intros W R K Wo Ko E. exists ci', (ops ++ [o]). split; [reflexivity|]. split; [|split].
  - apply Forall_app. split; [exact W|]. constructor; [exact Wo|constructor].
  - eapply run_snoc; eassumption.
  - unfold settings in *. rewrite fold_left_app, K. exact Ko.
Qed.
Lemma keeps_run decode p st c0 calls : forall c c', keeps p st c0 c -> cryptor_run decode c calls = Some c' -> keeps p st c0 c'.
Proof.
  induction calls as [|[e text] calls IH]; intros c c' I H; cbn [cryptor_run] in H.
  - inversion H; subst; exact I.
  - destruct I as [ci [ops [-> [W [R K]]]]]. destruct st as [[k t0] t1]. destruct e.
    + destruct (Cryptor_Encrypt (Some ci) text) as [[c1 out]|] eqn:E; [|discriminate].
      apply (IH c1 c'); [|exact H]. unfold Cryptor_Encrypt in E. cbv zeta in E.
      destruct (Encrypt ci _ _ _) as [[ci' mem]|] eqn:E'; [|discriminate]. inversion E; subst.
      eapply (keeps_step _ _ _ _ _ (OpEncrypt _ _ _)); [eassumption|eassumption|eassumption| |reflexivity|exact E'].
      cbn [wf_op off cap]. rewrite app_length, repeat_length. lia.
    + destruct (Cryptor_Decrypt decode (Some ci) text) as [[c1 out]|] eqn:E; [|discriminate].
      apply (IH c1 c'); [|exact H]. unfold Cryptor_Decrypt in E. cbv zeta in E.
      destruct (Decrypt ci _ _ _) as [[ci' mem]|] eqn:E'; [|discriminate]. inversion E; subst.
      eapply (keeps_step _ _ _ _ _ (OpDecrypt _ _ _)); [eassumption|eassumption|eassumption| |reflexivity|exact E'].
      cbn [wf_op off cap]. rewrite app_length, repeat_length. lia.
Qed.
(** The tweak is the sixteen bytes 0, 1, ..., 15. *)
Definition tweak0 : Z := word_of_bytes [0; 1; 2; 3; 4; 5; 6; 7].
Definition tweak1 : Z := word_of_bytes [8; 9; 10; 11; 12; 13; 14; 15].
Lemma cryptor_created keytext bits p : params_of (length keytext) = Some p ->
  exists ci, Cryptor_New keytext bits = Some ci
    /\ created ci p (words_of_bytes (nw p) keytext, tweak0, tweak1) /\ stateSize ci = 64 * Z.of_nat (nw p).
Proof.
  intros P. pose proof (New_ret keytext (Some cryptor_tweak) p P) as R. cbn [tweak_words cryptor_tweak] in R.
  destruct R as [v [c [Ev [E I]]]]. exists c. unfold Cryptor_New. fold cryptor_tweak in E. rewrite E. split; [reflexivity|]. split.
  - apply (by_New keytext (Some cryptor_tweak)); [exact P|reflexivity|exact E].
  - destruct I as [_ [-> _]]. subst p. rewrite params_nw. reflexivity.
Qed.

Lemma bytes_words_bytes_all ws : Forall byte (bytes_of_words ws).
Proof.
  unfold bytes_of_words. induction ws as [|w ws IH]; cbn [flat_map]; [constructor|].
  apply Forall_app. split; [|exact IH]. unfold bytes_of_word.
  repeat constructor; unfold byte; try (apply Z.mod_pos_bound; lia).
Qed.

Lemma skipn_repeat0 k : forall m, skipn k (repeat 0 m) = repeat 0 (m - k).
Proof. induction k as [|k IH]; intros [|m]; cbn [skipn repeat Nat.sub]; auto. Qed.

(** After any calls on a Cryptor made with a key text of 32, 64 or 128 bytes, Encrypt of a text of at
    least that many bytes returns the base64url text of the Threefish encryption of the text's first
    block, followed by one zero byte for each further byte of the text; a shorter text panics. *)
Theorem C70_encrypt_exact :
  forall decode keytext bits calls c text p,
    params_of (length keytext) = Some p ->
    cryptor_run decode (Cryptor_New keytext bits) calls = Some c ->
    let size := length keytext in
    option_map snd (Cryptor_Encrypt c text)
    = if (size <=? length text)%nat
      then Some (base64url (tf_encrypt_bytes p keytext tweak0 tweak1 (firstn size text) ++ repeat 0 (length text - size)))
      else None.
Proof.
  intros decode keytext bits calls c text p P R size.
  destruct (cryptor_created keytext bits p P) as [c0 [E0 [C Sz]]]. rewrite E0 in R.
  assert (K : keeps p (words_of_bytes (nw p) keytext, tweak0, tweak1) c0 (Some c0))
    by (exists c0, []; repeat split; constructor).
  destruct (keeps_run _ _ _ _ _ _ _ K R) as [ci [ops [-> [W [Rn S]]]]].
  assert (Hs : size = (8 * nw p)%nat).
  { unfold size. apply params_of_inv in P. destruct P as [[-> ->]|[[-> ->]|[-> ->]]]; reflexivity. }
  set (n := length text).
  assert (Wo : wf_op (OpEncrypt (text ++ repeat 0 n) {| off := n; cap := n |} {| off := 0; cap := n |}))
    by (cbn [wf_op off cap]; rewrite app_length, repeat_length; fold n; lia).
  unfold Cryptor_Encrypt. cbv zeta. fold n.
  destruct (Nat.leb_spec size n) as [L|L].
  - pose proof (enc_bytes_history _ _ _ _ _ _ _ _ C Sz W Rn Wo ltac:(cbn [cap]; lia) ltac:(cbn [cap]; lia)) as H0.
    rewrite S in H0. destruct H0 as [c' H]. rewrite H. cbn [option_map snd off]. f_equal.
    assert (Hr : region (text ++ repeat 0 n) 0 (8 * nw p) = firstn size text).
    { unfold region. cbn [skipn]. rewrite <- Hs, firstn_app. fold n.
      replace (size - n)%nat with 0%nat by lia. cbn [firstn]. apply app_nil_r. }
    rewrite Hr. fold (tf_encrypt_bytes p keytext tweak0 tweak1 (firstn size text)).
    set (F := tf_encrypt_bytes _ _ _ _ _).
    assert (LF : length F = size).
    { unfold F, tf_encrypt_bytes. rewrite bytes_of_words_length. rewrite Hs. apply f_equal.
      destruct (created_full _ _ _ C Sz) as [v [Ev I]]. cbn [vinv] in I. destruct I as [_ [_ [Hk _]]]. subst p.
      rewrite params_nw in *.
      unfold threefish_encrypt.
      etransitivity; [apply f_equal; symmetry; apply enc_body_spec; [apply words_of_bytes_length | apply ekl, Hk | reflexivity]|apply run_body_length]. }
    assert (BF : Forall byte F) by apply bytes_words_bytes_all.
    assert (Hsk : skipn n (overwrite (text ++ repeat 0 n) n F) = F ++ repeat 0 (n - size)).
    { unfold overwrite. rewrite firstn_app. fold n. rewrite Nat.sub_diag, firstn_O, app_nil_r.
      rewrite firstn_all2 by (unfold n; lia). rewrite skipn_app. fold n. rewrite Nat.sub_diag, skipn_O.
      rewrite skipn_all2 by (unfold n; lia). cbn [app]. f_equal. rewrite skipn_app. fold n.
      rewrite skipn_all2 by (fold n; lia). cbn [app]. rewrite LF.
      replace (n + size - n)%nat with size by lia. apply skipn_repeat0. }
    rewrite Hsk. apply b64_is_base64url. apply Forall_app. split; [exact BF|].
    apply Forall_forall. intros x Hx. apply repeat_spec in Hx. subst. unfold byte. lia.
  - destruct (created_full _ _ _ C Sz) as [v [<- I]].
    pose proof (run_inv _ _ _ _ _ _ I W Rn) as I'. rewrite S in I'. cbn [vinv] in I'. destruct Wo as [Wd Ws].
    pose proof (crypt_bytes_spec _ _ enc_body_spec _ _ _ _ _ _ _ _ _ I' Ws Wd) as B. cbv zeta in B.
    rewrite ss_words in B. rewrite params_nw in Hs.
    assert (Q : Nat.eqb (qwords v) 0 = false) by (destruct v; reflexivity). rewrite Q in B. cbn [orb cap] in B.
    destruct (Nat.leb_spec (8 * qwords v) n) as [X|X]; [lia|]. cbn [andb] in B. unfold Encrypt. rewrite B. reflexivity.
Qed.
Print Assumptions C70_encrypt_exact.

(** So what follows the first block is lost: texts of equal length with the same first block get the same answer. *)
Theorem C70_rest_is_lost_refuted :
  forall decode keytext bits calls c text1 text2 p,
    params_of (length keytext) = Some p ->
    cryptor_run decode (Cryptor_New keytext bits) calls = Some c ->
    length text1 = length text2 -> firstn (length keytext) text1 = firstn (length keytext) text2 ->
    option_map snd (Cryptor_Encrypt c text1) = option_map snd (Cryptor_Encrypt c text2).
Proof.
  intros decode keytext bits calls c text1 text2 p P R L F.
  rewrite !(C70_encrypt_exact decode keytext bits calls c _ p P R). cbv zeta. rewrite F, L. reflexivity.
Qed.
Print Assumptions C70_rest_is_lost_refuted.

(** Decrypt panics exactly when the decoded text is shorter than a block (what it returns otherwise is in C07). *)
Theorem C70_decrypt_panics_exactly :
  forall decode keytext bits calls c text p,
    params_of (length keytext) = Some p ->
    cryptor_run decode (Cryptor_New keytext bits) calls = Some c ->
    Cryptor_Decrypt decode c text = None <-> (length (decode text) < length keytext)%nat.
Proof.
  intros decode keytext bits calls c text p P R.
  destruct (cryptor_created keytext bits p P) as [c0 [E0 [C Sz]]]. rewrite E0 in R.
  assert (K : keeps p (words_of_bytes (nw p) keytext, tweak0, tweak1) c0 (Some c0))
    by (exists c0, []; repeat split; constructor).
  destruct (keeps_run _ _ _ _ _ _ _ K R) as [ci [ops [-> [W [Rn S]]]]].
  assert (Hs : length keytext = (8 * nw p)%nat).
  { apply params_of_inv in P. destruct P as [[-> ->]|[[-> ->]|[-> ->]]]; reflexivity. }
  unfold Cryptor_Decrypt. cbv zeta. set (b := decode text). set (n := length b).
  destruct (created_full _ _ _ C Sz) as [v [<- I]].
  pose proof (run_inv _ _ _ _ _ _ I W Rn) as I'. rewrite S in I'. cbn [vinv] in I'.
  pose proof (crypt_bytes_spec _ _ dec_body_spec _ _ _ _ _ _ (b ++ repeat 0 n)
     {| off := 0; cap := n |} {| off := n; cap := n |} I') as B.
  cbn [off cap] in B. rewrite app_length, repeat_length in B. fold n in B.
  specialize (B ltac:(lia) ltac:(lia)). cbv zeta in B. rewrite ss_words in B. rewrite params_nw in Hs.
  assert (Q : Nat.eqb (qwords v) 0 = false) by (destruct v; reflexivity). rewrite Q in B. cbn [orb] in B.
  unfold Decrypt. destruct (Nat.leb_spec (8 * qwords v) n) as [X|X]; cbn [andb] in B.
  - destruct B as [c' [_ B]]. rewrite B. split; [discriminate|lia].
  - rewrite B. split; [lia|reflexivity].
Qed.
Print Assumptions C70_decrypt_panics_exactly.

(** ** Non-vacuity: a 32-byte key, a call before, a text of 40 bytes. *)
Example C70_case :
  exists c, cryptor_run (fun _ => []) (Cryptor_New (repeat 65 32) 256) [(true, repeat 66 32)] = Some c
    /\ params_of (length (repeat 65 32)) = Some tf256
    /\ option_map (fun r => firstn 8 (snd r)) (Cryptor_Encrypt c (repeat 66 40)) <> None
    /\ Cryptor_Encrypt c (repeat 66 31) = None.
Proof.
  eexists. split; [vm_compute; reflexivity|]. split; [reflexivity|]. split; [vm_compute; discriminate|vm_compute; reflexivity].
Qed.
(** The RFC's own test vectors (RFC 4648, section 10). *)
Example base64_foobar : base64url (chars "foobar") = chars "Zm9vYmFy" /\ base64url (chars "fooba") = chars "Zm9vYmE="
  /\ base64url (chars "foob") = chars "Zm9vYg==" /\ base64url [251; 239; 255] = chars "--__".
Proof. repeat split; vm_compute; reflexivity. Qed.
