(** * Proofs about the cipher object. *)
From Coq Require Import ZArith List Bool Lia.
From Verif Require Import TfLang TfSpec TfAlgebra TfSym TfProofs TfConform CrypterModel CrypterSpec.
Import ListNotations.
Open Scope Z_scope.

(** ** Lists *)
Lemma set_nth_length i v l : length (set_nth i v l) = length l.
Proof. revert i. induction l as [|x l IH]; intros [|i]; cbn; auto. Qed.
Lemma set_nth_app (l1 l2 : list Z) x v : set_nth (length l1) v (l1 ++ x :: l2) = l1 ++ v :: l2.
Proof. induction l1 as [|y l1 IH]; cbn; [reflexivity | f_equal; exact IH]. Qed.
Lemma nth_set_nth i v l j : nth j (set_nth i v l) 0 = if (Nat.eqb j i && Nat.ltb i (length l))%bool then v else nth j l 0.
Proof.
  revert i j. induction l as [|x l IH]; intros [|i] [|j]; cbn [set_nth nth length]; try reflexivity.
  - rewrite andb_false_r. reflexivity.
  - rewrite IH. reflexivity.
Qed.
Lemma nth_error_skipn {A} (l : list A) i x : nth_error l i = Some x -> skipn i l = x :: skipn (S i) l.
Proof. revert l. induction i as [|i IH]; intros [|y l] H; try discriminate; cbn in *; [congruence|]. apply IH, H. Qed.

Lemma firstn_S_set_nth k : forall l i, (i < length l)%nat -> firstn (S i) (set_nth i k l) = firstn i l ++ [k].
Proof.
  induction l as [|x l IH]; intros [|i] H; cbn [length] in H; try lia; [reflexivity|].
  cbn [set_nth]. rewrite !firstn_cons. cbn [app]. f_equal. apply IH. lia.
Qed.
Lemma set_nth_last k : forall l i, length l = S i -> set_nth i k l = firstn i l ++ [k].
Proof.
  induction l as [|x l IH]; intros [|i] H; cbn [length] in H; try lia.
  - destruct l; [reflexivity|discriminate].
  - cbn. f_equal. apply IH. lia.
Qed.

(** ** Key and tweak expansion *)
Lemma setKey_loop_spec n : forall i key xk par,
  length xk = (i + n + 1)%nat ->
  setKey_loop n i key xk par
  = if (length key <? i + n)%nat && negb (Nat.eqb n 0) then None
    else Some (firstn i xk ++ firstn n (skipn i key) ++ [fold_left wxor (firstn n (skipn i key)) par]).
Proof.
  induction n as [|n IH]; intros i key xk par L; cbn [setKey_loop].
  - rewrite andb_false_r. cbn.
    f_equal. apply set_nth_last. lia.
  - destruct (nth_error key i) as [k|] eqn:N.
    + assert (Hlt : (i < length key)%nat) by (apply nth_error_Some; congruence).
      rewrite IH by (rewrite set_nth_length; lia).
      replace (S i + n)%nat with (i + S n)%nat by lia.
      rewrite (nth_error_skipn _ _ _ N). rewrite firstn_cons. cbn [fold_left].
      destruct (Nat.eqb n 0) eqn:En.
      * apply Nat.eqb_eq in En. subst n. cbn [negb]. rewrite andb_false_r.
        destruct (Nat.ltb_spec (length key) (i + 1)); [lia|]. cbn [andb].
        f_equal.
        rewrite firstn_S_set_nth by lia. rewrite <- app_assoc. reflexivity.
      * cbn [negb]. destruct (length key <? i + S n)%nat; cbn [andb]; [reflexivity|].
        f_equal.
        rewrite firstn_S_set_nth by lia. rewrite <- app_assoc. reflexivity.
    + apply nth_error_None in N. destruct (Nat.ltb_spec (length key) (i + S n)); [reflexivity|lia].
Qed.

Lemma setKey_spec n key xk : length xk = (n + 1)%nat -> (0 < n)%nat ->
  setKey key xk = if (length key <? n)%nat then None else Some (extend_key word64 (firstn n key)).
Proof.
  intros L Hn. unfold setKey. replace (length xk - 1)%nat with n by lia.
  rewrite setKey_loop_spec by lia. cbn [firstn skipn app Nat.add].
  destruct n as [|n']; [lia|]. cbn [Nat.eqb negb]. rewrite andb_true_r.
  destruct (length key <? S n')%nat; reflexivity.
Qed.

Lemma setTweak_spec tw xt : length xt = 3%nat ->
  setTweak tw xt = match tw with
                   | None => Some xt
                   | Some (t0 :: t1 :: _) => Some (extend_tweak word64 t0 t1)
                   | Some _ => None
                   end.
Proof.
  intros L. destruct xt as [|a [|b [|c [|d xt]]]]; try discriminate L.
  destruct tw as [[|t0 [|t1 tw]]|]; reflexivity.
Qed.

(** ** Bytes and words *)
Definition bytes (l : list Z) : Prop := Forall byte l.
Lemma uint64le_spec b : (8 <= length b)%nat -> uint64le b = word_of_bytes (firstn 8 b).
Proof.
  intros L. unfold uint64le.
  do 8 (destruct b as [|? b]; [cbn in L; lia|]). cbn [firstn le_uint word_of_bytes]. lia.
Qed.
Lemma put_uint64le_spec w : put_uint64le w = bytes_of_word w.
Proof.
  unfold put_uint64le, bytes_of_word. cbn [seq map].
  rewrite !Z.shiftr_div_pow2 by lia.
  change (8 * Z.of_nat 0) with 0. rewrite Z.pow_0_r, Z.div_1_r. reflexivity.
Qed.
Lemma bytes_of_word_length w : length (bytes_of_word w) = 8%nat.
Proof. reflexivity. Qed.
Lemma bytes_of_words_length ws : length (bytes_of_words ws) = (8 * length ws)%nat.
Proof. induction ws as [|w ws IH]; [reflexivity|]. unfold bytes_of_words in *. cbn [flat_map]. rewrite app_length, IH. cbn [length]. rewrite bytes_of_word_length. lia. Qed.
Lemma bytes_of_words_bytes ws : bytes (bytes_of_words ws).
Proof.
  apply Forall_forall. intros x Hx. apply in_flat_map in Hx. destruct Hx as [w [_ H]].
  unfold bytes_of_word in H. cbn [List.In] in H. change (2^8) with 256 in H.
  repeat (destruct H as [<-|H]; [apply Z.mod_pos_bound; lia|]). destruct H.
Qed.
Lemma word_roundtrip b : length b = 8%nat -> bytes b -> bytes_of_word (word_of_bytes b) = b.
Proof.
  intros L H. do 8 (destruct b as [|? b]; [discriminate L|]). destruct b; [|discriminate L].
  repeat match goal with Hb : bytes (_ :: _) |- _ => inversion Hb; clear Hb; subst
                    | Hb : Forall byte (_ :: _) |- _ => inversion Hb; clear Hb; subst end.
  unfold byte in *. unfold bytes_of_word, word_of_bytes.
  change (2^8) with 256 in *. change (2^16) with 65536. change (2^24) with 16777216.
  change (2^32) with 4294967296. change (2^40) with 1099511627776. change (2^48) with 281474976710656.
  change (2^56) with 72057594037927936.
  repeat (f_equal; [Z.div_mod_to_equations; lia|]). f_equal. Z.div_mod_to_equations; lia.
Qed.
Lemma word_of_bytes_word b : length b = 8%nat -> bytes b -> word (word_of_bytes b).
Proof.
  intros L H. do 8 (destruct b as [|? b]; [discriminate L|]). destruct b; [|discriminate L].
  repeat match goal with Hb : bytes (_ :: _) |- _ => inversion Hb; clear Hb; subst
                    | Hb : Forall byte (_ :: _) |- _ => inversion Hb; clear Hb; subst end.
  unfold byte, word in *. unfold word_of_bytes.
  change (2^8) with 256 in *. change (2^16) with 65536. change (2^24) with 16777216.
  change (2^32) with 4294967296. change (2^40) with 1099511627776. change (2^48) with 281474976710656.
  change (2^56) with 72057594037927936. change (2^64) with 18446744073709551616. lia.
Qed.
Lemma bytes_roundtrip w : word w -> word_of_bytes (bytes_of_word w) = w.
Proof.
  intros H. unfold bytes_of_word, word_of_bytes, word in *.
  change (2^8) with 256 in *. change (2^16) with 65536. change (2^24) with 16777216.
  change (2^32) with 4294967296. change (2^40) with 1099511627776. change (2^48) with 281474976710656.
  change (2^56) with 72057594037927936. change (2^64) with 18446744073709551616 in H.
  assert (D : forall x, x = x mod 256 + 256 * (x / 256)) by (intros x; pose proof (Z.div_mod x 256); lia).
  assert (E : forall x, x / 65536 = x / 256 / 256 /\ x / 16777216 = x / 256 / 256 / 256
     /\ x / 4294967296 = x / 256 / 256 / 256 / 256 /\ x / 1099511627776 = x / 256 / 256 / 256 / 256 / 256
     /\ x / 281474976710656 = x / 256 / 256 / 256 / 256 / 256 / 256
     /\ x / 72057594037927936 = x / 256 / 256 / 256 / 256 / 256 / 256 / 256)
    by (intros x; rewrite !Z.div_div by lia; repeat split; reflexivity).
  destruct (E w) as [E1 [E2 [E3 [E4 [E5 E6]]]]]. rewrite E1, E2, E3, E4, E5, E6. clear E.
  assert (E7 : w / 256 / 256 / 256 / 256 / 256 / 256 / 256 / 256 = 0).
  { rewrite !Z.div_div by lia. apply Z.div_small. cbn. lia. }
  clear E1 E2 E3 E4 E5 E6.
  pose proof (D w) as D0. set (w1 := w / 256) in *. pose proof (D w1) as D1. set (w2 := w1 / 256) in *.
  pose proof (D w2) as D2. set (w3 := w2 / 256) in *. pose proof (D w3) as D3. set (w4 := w3 / 256) in *.
  pose proof (D w4) as D4. set (w5 := w4 / 256) in *. pose proof (D w5) as D5. set (w6 := w5 / 256) in *.
  pose proof (D w6) as D6. set (w7 := w6 / 256) in *. pose proof (D w7) as D7. rewrite E7 in D7.
  lia.
Qed.
