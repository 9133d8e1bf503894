(** What "without surrounding space" means in C36 (the name after [env:]) and C52 (the text drawn by [show -q]): on every
    valid UTF-8 text strings.TrimSpace removes exactly the white runes at both ends.  /repo/cmds/show.go:91 calls
    strings.TrimSpace on the rest of the line, /repo/cmds/setenv.go:37 on the name. *)
From Coq Require Import String.
From Coq Require Import ZArith Arith List Bool Lia.
From Verif Require Import Utf8 GoStr.
Import ListNotations.
Open Scope Z_scope.

(** Unicode's White_Space, listed. *)
Definition white : list Z :=
  [9; 10; 11; 12; 13; 32; 0x85; 0xA0; 0x1680; 0x2000; 0x2001; 0x2002; 0x2003; 0x2004; 0x2005; 0x2006; 0x2007; 0x2008; 0x2009; 0x200a;
   0x2028; 0x2029; 0x202f; 0x205f; 0x3000].
Lemma isSpace_white r : isSpace r = true <-> In r white.
Proof.
  unfold isSpace, white. split.
  - intros H. repeat (rewrite orb_true_iff in H || rewrite andb_true_iff in H). rewrite !Z.eqb_eq, !Z.leb_le in H. cbn [In]. lia.
  - intros H. cbn [In] in H. repeat (destruct H as [<-|H]; [reflexivity|]). contradiction.
Qed.

Lemma encode_shape r : valid_rune r ->
  match encode r with
  | [a] => 0 <= a < 128
  | [a; b] => rune_start a = true /\ 128 <= b
  | [a; b; c] => rune_start a = true /\ rune_start b = false /\ 128 <= c
  | [a; b; c; d] => rune_start b = false /\ rune_start c = false /\ 128 <= d
  | _ => False
  end.
Proof.
  intros [B Sg]. unfold encode. rewrite Sg.
  destruct (Z.ltb_spec r 0); [lia|]. destruct (Z.gtb_spec r 1114111); [lia|]. cbn [orb].
  pose proof (Z.mod_pos_bound r 64 ltac:(lia)). pose proof (Z.mod_pos_bound (r / 64) 64 ltac:(lia)). pose proof (Z.mod_pos_bound (r / 4096) 64 ltac:(lia)).
  assert (L : forall x, 192 <= x -> rune_start x = true) by (intros x X; unfold rune_start; destruct (Z.ltb_spec x 192); [lia|]; rewrite andb_false_r; reflexivity).
  assert (N : forall x, 0 <= x < 64 -> rune_start (128 + x) = false).
  { intros x X. unfold rune_start. destruct (Z.leb_spec 128 (128 + x)); [|lia]. destruct (Z.ltb_spec (128 + x) 192); [reflexivity|lia]. }
  assert (D : forall k, 0 < k -> 0 <= r / k) by (intros; apply Z.div_pos; lia).
  destruct (Z.ltb_spec r 128) as [G1|G1]; [lia|].
  destruct (Z.ltb_spec r 2048) as [G2|G2]; [split; [apply L; specialize (D 64); lia|lia]|].
  destruct (Z.ltb_spec r 65536) as [G3|G3]; [split; [apply L; specialize (D 4096); lia|split; [apply N; lia|lia]]|].
  split; [apply N; lia|]. split; [apply N; lia|lia].
Qed.
Lemma decode_last_encode s r : valid_rune r -> decode_last (s ++ encode r) = (r, length (encode r)).
Proof.
  intros V. pose proof (encode_shape r V) as E. pose proof (decode_encode r [] V) as D. rewrite app_nil_r in D.
  assert (K : skipn (length (s ++ encode r) - length (encode r)) (s ++ encode r) = encode r).
  { rewrite app_length, Nat.add_sub, skipn_app, skipn_all, Nat.sub_diag. reflexivity. }
  unfold decode_last. rewrite rev_app_distr.
  destruct (encode r) as [|a [|b [|c [|d [|e t]]]]] eqn:Er; try contradiction; cbn [rev app length] in *.
  - destruct (Z.ltb_spec a 128); [|lia]. cbn [decode] in D. destruct (Z.ltb_spec a 128); [|lia]. exact D.
  - destruct E as [E1 E2]. destruct (Z.ltb_spec b 128); [lia|]. rewrite E1, K, D. reflexivity.
  - destruct E as [E1 [E2 E3]]. destruct (Z.ltb_spec c 128); [lia|]. rewrite E2, E1, K, D. reflexivity.
  - destruct E as [E1 [E2 E3]]. destruct (Z.ltb_spec d 128); [lia|]. rewrite E2, E1, K, D. reflexivity.
Qed.
Lemma utf8_app a b : utf8 (a ++ b) = utf8 a ++ utf8 b.
Proof. unfold utf8. rewrite map_app, concat_app. reflexivity. Qed.

Lemma trim_left_white a : forall m fuel, Forall valid_rune (a ++ m) -> Forall (fun r => In r white) a ->
  match m with r :: _ => ~ In r white | [] => True end -> (length (utf8 (a ++ m)) <= fuel)%nat -> trim_left fuel (utf8 (a ++ m)) = utf8 m.
Proof.
  induction a as [|r a IH]; intros m fuel V W M L; cbn [app] in *.
  - destruct m as [|r m]; [destruct fuel; reflexivity|]. inversion V as [|x y Vr Vm]; subst. change (utf8 (r :: m)) with (encode r ++ utf8 m) in *.
    pose proof (decode_encode r (utf8 m) Vr) as D. destruct fuel as [|f]; [pose proof (encode_nonempty r); destruct (encode r); [congruence|cbn in L; lia]|].
    destruct (encode r ++ utf8 m) as [|b t] eqn:E; [reflexivity|]. cbn [trim_left]. rewrite D.
    destruct (isSpace r) eqn:I; [apply isSpace_white in I; contradiction|reflexivity].
  - inversion V as [|x y Vr Vm]; subst. inversion W as [|x y Wr Wa]; subst. change (utf8 (r :: a ++ m)) with (encode r ++ utf8 (a ++ m)) in *.
    pose proof (decode_encode r (utf8 (a ++ m)) Vr) as D. pose proof (encode_nonempty r) as Ne. rewrite app_length in L.
    assert (1 <= length (encode r))%nat by (destruct (encode r); [congruence|cbn; lia]).
    destruct fuel as [|f]; [lia|]. destruct (encode r ++ utf8 (a ++ m)) as [|b t] eqn:E; [destruct (encode r); [congruence|discriminate]|]. cbn [trim_left]. rewrite D.
    apply isSpace_white in Wr. rewrite Wr, <- E, skipn_app, skipn_all, Nat.sub_diag. cbn [app skipn]. apply IH; auto. lia.
Qed.
Lemma trim_right_white b : forall m fuel, Forall valid_rune (m ++ rev b) -> Forall (fun r => In r white) b ->
  match rev m with r :: _ => ~ In r white | [] => True end -> (length (utf8 (m ++ rev b)) <= fuel)%nat -> trim_right fuel (utf8 (m ++ rev b)) = utf8 m.
Proof.
  induction b as [|r b IH]; intros m fuel V W M L; cbn [rev] in *.
  - rewrite app_nil_r in *. destruct (rev m) as [|r q] eqn:E.
    + rewrite <- (rev_involutive m), E. destruct fuel; reflexivity.
    + assert (m = rev q ++ [r]) by (rewrite <- (rev_involutive m), E; reflexivity). subst m. rewrite utf8_app in *. cbn [utf8 map concat] in *. change (utf8 [r]) with (encode r ++ []) in *. rewrite app_nil_r in *.
      apply Forall_app in V. destruct V as [_ V]. inversion V as [|x y Vr _]; subst. pose proof (decode_last_encode (utf8 (rev q)) r Vr) as D.
      destruct fuel as [|f]; [reflexivity|]. destruct (utf8 (rev q) ++ encode r) as [|c t] eqn:E2; [reflexivity|]. cbn [trim_right]. rewrite D.
      destruct (isSpace r) eqn:I; [apply isSpace_white in I; contradiction|reflexivity].
  - inversion W as [|x y Wr Wb]; subst. rewrite app_assoc in *. rewrite utf8_app in *. change (utf8 [r]) with (encode r ++ []) in *. rewrite app_nil_r in *.
    apply Forall_app in V. destruct V as [V Vr]. inversion Vr as [|x y Vr' _]; subst. pose proof (decode_last_encode (utf8 (m ++ rev b)) r Vr') as D.
    pose proof (encode_nonempty r) as Ne. rewrite app_length in L. assert (1 <= length (encode r))%nat by (destruct (encode r); [congruence|cbn; lia]).
    destruct fuel as [|f]; [lia|]. destruct (utf8 (m ++ rev b) ++ encode r) as [|c t] eqn:E2; [apply app_eq_nil in E2; destruct E2; congruence|]. cbn [trim_right]. rewrite D.
    apply isSpace_white in Wr. rewrite Wr, <- E2, app_length, Nat.add_sub, firstn_app, firstn_all, Nat.sub_diag. cbn [firstn]. rewrite app_nil_r. apply IH; auto. lia.
Qed.
(** Space a before, space b after, and text m that neither starts nor ends with space: what stays is m. *)
Theorem C52_trimmed a m b : Forall valid_rune (a ++ m ++ b) -> Forall (fun r => In r white) (a ++ b) ->
  match m with r :: _ => ~ In r white | [] => True end -> match rev m with r :: _ => ~ In r white | [] => True end ->
  TrimSpace (utf8 (a ++ m ++ b)) = utf8 m.
Proof.
  intros V W M1 M2. apply Forall_app in W. destruct W as [Wa Wb]. unfold TrimSpace.
  destruct m as [|r m].
  - assert (E : trim_left (length (utf8 (a ++ [] ++ b))) (utf8 (a ++ [] ++ b)) = []).
    { cbn [app] in *. replace (a ++ b) with ((a ++ b) ++ []) in * by apply app_nil_r. apply trim_left_white; auto. apply Forall_app; auto. }
    rewrite E. reflexivity.
  - rewrite (trim_left_white a ((r :: m) ++ b)); auto. apply Forall_app in V. destruct V as [_ V].
    rewrite <- (rev_involutive b) in *. apply trim_right_white; auto. rewrite rev_involutive in Wb. rewrite Forall_forall in *. intros x X. apply Wb. apply in_rev. exact X.
Qed.
(** A rune of the text that is no space is kept: nothing but space is ever cut. *)
Theorem C36_name_trimmed a m b : Forall valid_rune (a ++ m ++ b) -> Forall (fun r => In r white) (a ++ b) ->
  match m with r :: _ => ~ In r white | [] => True end -> match rev m with r :: _ => ~ In r white | [] => True end ->
  TrimSpace (skipn 4 (lit "env:" ++ utf8 (a ++ m ++ b))) = utf8 m.
Proof. intros V W M1 M2. change (skipn 4 (lit "env:" ++ utf8 (a ++ m ++ b))) with (utf8 (a ++ m ++ b)). apply C52_trimmed; auto. Qed.
Example C52_case_trimmed : TrimSpace (utf8 [32; 0xA0; 13; 104; 32; 0xe9; 0x3000; 9]) = utf8 [104; 32; 0xe9].
Proof.
  apply (C52_trimmed [32; 0xA0; 13] [104; 32; 0xe9] [0x3000; 9]).
  - repeat constructor; vm_compute; congruence.
  - apply Forall_forall. intros x X. apply isSpace_white. vm_compute in X. repeat (destruct X as [<-|X]; [reflexivity|]). contradiction.
  - vm_compute. intuition discriminate.
  - vm_compute. intuition discriminate.
Qed.
Print Assumptions C52_trimmed.
Print Assumptions C36_name_trimmed.
