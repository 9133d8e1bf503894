(** * What a form without 'a' does to a generated password (lemmas for C83; specification vocabulary: [shows], [picks]). *)
From Coq Require Import String ZArith Arith List Bool Lia Permutation.
From Verif Require Import Utf8 PasswordModel PasswordProofs PasswordSpec PasswordCount PasswordProps FormModel FormSpec FormProps.
Import ListNotations.
Open Scope Z_scope.

(** [shows form out letters digits symbols]: [out] is the form filled in from left to right with these letters (as lower case;
    X writes the upper-case letter), digits and symbols, none left over. *)
Inductive shows : list Z -> list Z -> list Z -> list Z -> list Z -> Prop :=
| Sh_nil : shows [] [] [] [] []
| Sh_x c f o ls ds ss : lower c -> shows f o ls ds ss -> shows (120 :: f) (c :: o) (c :: ls) ds ss
| Sh_X c f o ls ds ss : lower c -> shows f o ls ds ss -> shows (88 :: f) (c - 32 :: o) (c :: ls) ds ss
| Sh_n c f o ls ds ss : digit c -> shows f o ls ds ss -> shows (110 :: f) (c :: o) ls (c :: ds) ss
| Sh_s c f o ls ds ss : In c Symbols -> shows f o ls ds ss -> shows (115 :: f) (c :: o) ls ds (c :: ss)
| Sh_sep c f o ls ds ss : separator c -> shows f o ls ds ss -> shows (c :: f) (c :: o) ls ds ss
| Sh_other c f o ls ds ss : c <> 120 -> c <> 88 -> c <> 110 -> c <> 115 -> c <> 97 -> ~ separator c ->
    shows f o ls ds ss -> shows (c :: f) o ls ds ss.

Lemma Symbols_ascii c : In c Symbols -> 33 <= c <= 126 /\ ~ isL c /\ ~ digit c.
Proof. intros H. apply (C08_default_characters c) in H. unfold isL, digit. lia. Qed.

Lemma shows_inj f o ls ds ss : shows f o ls ds ss -> forall ls' ds' ss', shows f o ls' ds' ss' -> ls = ls' /\ ds = ds' /\ ss = ss'.
Proof.
  induction 1 as [|c f o ls ds ss Hc H IH|c f o ls ds ss Hc H IH|c f o ls ds ss Hc H IH|c f o ls ds ss Hc H IH|c f o ls ds ss Hc H IH|c f o ls ds ss H1 H2 H3 H4 H5 H6 H IH];
    intros ls' ds' ss' H'.
  - inversion H'. auto.
  - inversion H'; subst; try (unfold separator in *; lia). destruct (IH _ _ _ ltac:(eassumption)) as [-> [-> ->]]. auto.
  - inversion H'; subst; try (unfold separator in *; lia). destruct (IH _ _ _ ltac:(eassumption)) as [-> [-> ->]]. repeat split. f_equal. lia.
  - inversion H'; subst; try (unfold separator in *; lia). destruct (IH _ _ _ ltac:(eassumption)) as [-> [-> ->]]. auto.
  - inversion H'; subst; try (unfold separator in *; lia). destruct (IH _ _ _ ltac:(eassumption)) as [-> [-> ->]]. auto.
  - inversion H'; subst; try (unfold separator in *; lia); try contradiction. destruct (IH _ _ _ ltac:(eassumption)) as [-> [-> ->]]. auto.
  - inversion H'; subst; try (unfold separator in *; lia); try contradiction. destruct (IH _ _ _ ltac:(eassumption)) as [-> [-> ->]]. auto.
Qed.
Lemma shows_fun f o ls ds ss : shows f o ls ds ss -> forall o', shows f o' ls ds ss -> o = o'.
Proof.
  induction 1; intros o' H'; inversion H'; subst; try (unfold separator in *; lia); try contradiction; try reflexivity; f_equal; auto.
Qed.
Lemma shows_lengths f o ls ds ss : shows f o ls ds ss ->
  Z.of_nat (length ls) = countr rx f + countr rX f /\ Z.of_nat (length ds) = countr rn f /\ Z.of_nat (length ss) = countr rs f /\ countr ra f = 0
  /\ Forall lower ls /\ Forall digit ds /\ Forall (fun c => In c Symbols) ss.
Proof.
  induction 1 as [|c f o ls ds ss Hc H IH|c f o ls ds ss Hc H IH|c f o ls ds ss Hc H IH|c f o ls ds ss Hc H IH|c f o ls ds ss Hc H IH|c f o ls ds ss H1 H2 H3 H4 H5 H6 H IH].
  1:{ cbn. repeat split; constructor. }
  all: destruct IH as [I1 [I2 [I3 [I4 [I5 [I6 I7]]]]]]; rewrite !countr_cons; unfold rx, rX, rn, rs, ra in *; cbn [length].
  all: repeat split; try assumption; try (constructor; assumption).
  all: repeat match goal with |- context [?a =? ?b] => destruct (Z.eqb_spec a b) end; unfold separator in *; try lia.
Qed.
(** ** [fill] writes what [shows] says *)
Lemma isL_lower c : isL c -> lower (to_lower c).
Proof. apply lower_of. Qed.
Lemma to_upper_of c : isL c -> to_upper c = to_lower c - 32.
Proof.
  unfold isL, to_upper, to_lower. intros H. destruct (Z.leb_spec 97 c), (Z.leb_spec c 122), (Z.leb_spec 65 c), (Z.leb_spec c 90); cbn; lia.
Qed.
Lemma fill_shows f : forall rs_ ds ss res o, countr ra f = 0 -> Forall isL rs_ -> Forall digit ds -> Forall (fun c => In c Symbols) ss ->
  Z.of_nat (length rs_) = countr rx f + countr rX f -> Z.of_nat (length ds) = countr rn f -> Z.of_nat (length ss) = countr rs f ->
  fill f rs_ ds ss res = Some o -> shows f o (map to_lower rs_) ds ss.
Proof.
  induction f as [|c f IH]; intros rs_ ds ss res o A F1 F2 F3 L1 L2 L3 E.
  - cbn in L1, L2, L3. destruct rs_, ds, ss; cbn in L1, L2, L3; try lia. cbn in E. injection E as <-. constructor.
  - rewrite !countr_cons in *. cbn [fill] in E. pose proof (countr_nonneg ra f). pose proof (countr_nonneg rx f). pose proof (countr_nonneg rX f).
    unfold rx, rX, rn, rs, ra, rdash, runder, rslash, rback, rhash in *.
    destruct (Z.eqb_spec c 120) as [->|N1].
    { destruct rs_ as [|ch rs_]; [discriminate|]. destruct (fill f rs_ ds ss res) as [o'|] eqn:Ef; [|discriminate]. cbn [option_map] in E. injection E as <-.
      inversion F1; subst. rewrite encode_ascii by (pose proof (isL_lower ch H4) as Q; unfold lower in Q; lia). cbn [app map].
      constructor; [apply isL_lower; assumption|]. cbn [Z.eqb Pos.eqb] in A, L1, L2, L3. cbn [length] in L1. eapply IH; eauto; lia. }
    destruct (Z.eqb_spec c 88) as [->|N2].
    { destruct rs_ as [|ch rs_]; [discriminate|]. destruct (fill f rs_ ds ss res) as [o'|] eqn:Ef; [|discriminate]. cbn [option_map] in E. injection E as <-.
      inversion F1; subst. rewrite to_upper_of by assumption. rewrite encode_ascii by (pose proof (isL_lower ch H4) as Q; unfold lower in Q; lia). cbn [app map].
      constructor; [apply isL_lower; assumption|]. cbn [Z.eqb Pos.eqb] in A, L1, L2, L3. cbn [length] in L1. eapply IH; eauto; lia. }
    destruct (Z.eqb_spec c 110) as [->|N3].
    { destruct ds as [|ch ds]; [discriminate|]. destruct (fill f rs_ ds ss res) as [o'|] eqn:Ef; [|discriminate]. cbn [option_map] in E. injection E as <-.
      inversion F2; subst. rewrite encode_ascii by (unfold digit in *; lia). cbn [app].
      constructor; [assumption|]. cbn [Z.eqb Pos.eqb] in A, L1, L2, L3. cbn [length] in L2. eapply IH; eauto; lia. }
    destruct (Z.eqb_spec c 115) as [->|N4].
    { destruct ss as [|ch ss]; [discriminate|]. destruct (fill f rs_ ds ss res) as [o'|] eqn:Ef; [|discriminate]. cbn [option_map] in E. injection E as <-.
      inversion F3; subst. rewrite encode_ascii by (apply Symbols_ascii in H4; lia). cbn [app].
      constructor; [assumption|]. cbn [Z.eqb Pos.eqb] in A, L1, L2, L3. cbn [length] in L3. eapply IH; eauto; lia. }
    destruct (Z.eqb_spec 97 c) as [E97|N5]; [lia|].
    destruct (Z.eqb_spec 120 c); [lia|]. destruct (Z.eqb_spec 88 c); [lia|]. destruct (Z.eqb_spec 110 c); [lia|]. destruct (Z.eqb_spec 115 c); [lia|].
    destruct ((c =? 45) || (c =? 95) || (c =? 47) || (c =? 92) || (c =? 35)) eqn:Sp.
    + destruct (fill f rs_ ds ss res) as [o'|] eqn:Ef; [|discriminate]. cbn [option_map] in E. injection E as <-.
      assert (Se : separator c) by (rewrite !orb_true_iff, !Z.eqb_eq in Sp; unfold separator; tauto).
      rewrite encode_ascii by (unfold separator in Se; lia). cbn [app]. apply Sh_sep; [exact Se|]. eapply IH; eauto; lia.
    + destruct (Z.eqb_spec c 97); [lia|]. apply Sh_other; try lia; [|eapply IH; eauto; lia].
      intros Se. rewrite !orb_false_iff, !Z.eqb_neq in Sp. unfold separator in Se. tauto.
Qed.
Lemma shows_fill f o ls ds ss : shows f o ls ds ss -> forall rs_ res, Forall isL rs_ -> map to_lower rs_ = ls -> fill f rs_ ds ss res = Some o.
Proof.
  induction 1 as [|c f o ls ds ss Hc H IH|c f o ls ds ss Hc H IH|c f o ls ds ss Hc H IH|c f o ls ds ss Hc H IH|c f o ls ds ss Hc H IH|c f o ls ds ss H1 H2 H3 H4 H5 H6 H IH];
    intros rs_ res F M; cbn [fill].
  - reflexivity.
  - cbn. destruct rs_ as [|ch rs_]; [discriminate|]. cbn in M. injection M as M1 M2. inversion F; subst. rewrite (IH rs_) by (assumption || reflexivity). cbn.
    rewrite encode_ascii by (unfold lower in Hc; lia). reflexivity.
  - cbn. destruct rs_ as [|ch rs_]; [discriminate|]. cbn in M. injection M as M1 M2. inversion F; subst. rewrite (IH rs_) by (assumption || reflexivity). cbn.
    rewrite to_upper_of by assumption. rewrite encode_ascii by (unfold lower in Hc; lia). reflexivity.
  - cbn. rewrite (IH rs_) by assumption. cbn. rewrite encode_ascii by (unfold digit in Hc; lia). reflexivity.
  - cbn. rewrite (IH rs_) by assumption. cbn. rewrite encode_ascii by (apply Symbols_ascii in Hc; lia). reflexivity.
  - unfold rx, rX, rn, rs, ra, rdash, runder, rslash, rback, rhash. pose proof Hc as Se. unfold separator in Hc.
    destruct (Z.eqb_spec c 120); [lia|]. destruct (Z.eqb_spec c 88); [lia|]. destruct (Z.eqb_spec c 110); [lia|]. destruct (Z.eqb_spec c 115); [lia|].
    assert (Sp : (c =? 45) || (c =? 95) || (c =? 47) || (c =? 92) || (c =? 35) = true) by (rewrite !orb_true_iff, !Z.eqb_eq; tauto).
    rewrite Sp, (IH rs_) by assumption. cbn. rewrite encode_ascii by lia. reflexivity.
  - unfold rx, rX, rn, rs, ra, rdash, runder, rslash, rback, rhash.
    destruct (Z.eqb_spec c 120); [lia|]. destruct (Z.eqb_spec c 88); [lia|]. destruct (Z.eqb_spec c 110); [lia|]. destruct (Z.eqb_spec c 115); [lia|].
    assert (Sp : (c =? 45) || (c =? 95) || (c =? 47) || (c =? 92) || (c =? 35) = false).
    { rewrite !orb_false_iff, !Z.eqb_neq. unfold separator in H6. tauto. }
    rewrite Sp. destruct (Z.eqb_spec c 97); [lia|]. apply IH; assumption.
Qed.

(** ** Taking a password apart and weaving it together again *)
Inductive kind := Lo | Up | Di | Sy.
Definition kind_of (c : Z) : kind := if isNumber c then Di else if isSymbol c then Sy else if c <=? 90 then Up else Lo.
Fixpoint weave (ks : list kind) (ls ds ss : list Z) : list Z :=
  match ks with
  | [] => []
  | Lo :: ks' => match ls with c :: ls' => c :: weave ks' ls' ds ss | [] => [] end
  | Up :: ks' => match ls with c :: ls' => to_upper c :: weave ks' ls' ds ss | [] => [] end
  | Di :: ks' => match ds with c :: ds' => c :: weave ks' ls ds' ss | [] => [] end
  | Sy :: ks' => match ss with c :: ss' => c :: weave ks' ls ds ss' | [] => [] end
  end.
Definition Ls (w : list Z) := filter letter_class w.
Definition Ds (w : list Z) := filter isNumber w.
Definition Ss (w : list Z) := filter symbol_class w.
(** What [kind_of] and the classes say about the default characters. *)
Lemma kinds c : In c all_default ->
  match kind_of c with
  | Lo => letter_class c = true /\ isNumber c = false /\ symbol_class c = false /\ lower c
  | Up => letter_class c = true /\ isNumber c = false /\ symbol_class c = false /\ upper c
  | Di => letter_class c = false /\ isNumber c = true /\ symbol_class c = false /\ digit c
  | Sy => letter_class c = false /\ isNumber c = false /\ symbol_class c = true /\ In c Symbols
  end.
Proof.
  intros H.
  assert (K : forallb (fun c => match kind_of c with
    | Lo => letter_class c && negb (isNumber c) && negb (symbol_class c) && ((97 <=? c) && (c <=? 122))
    | Up => letter_class c && negb (isNumber c) && negb (symbol_class c) && ((65 <=? c) && (c <=? 90))
    | Di => negb (letter_class c) && isNumber c && negb (symbol_class c) && ((48 <=? c) && (c <=? 57))
    | Sy => negb (letter_class c) && negb (isNumber c) && symbol_class c && memb c Symbols end) all_default = true) by (vm_compute; reflexivity).
  rewrite forallb_forall in K. specialize (K c H).
  destruct (kind_of c); rewrite !andb_true_iff, ?negb_true_iff, ?Z.leb_le in K; unfold lower, upper, digit; try tauto.
  split; [tauto|]. split; [tauto|]. split; [tauto|]. apply memb_true. tauto.
Qed.
Lemma weave_back w : Forall (fun c => In c all_default) w -> weave (map kind_of w) (map to_lower (Ls w)) (Ds w) (Ss w) = w.
Proof.
  induction 1 as [|c w Hc _ IH]; [reflexivity|]. pose proof (kinds c Hc) as K. unfold Ls, Ds, Ss in *. cbn [map filter weave].
  destruct (kind_of c); destruct K as [K1 [K2 [K3 K4]]]; rewrite K1, K2, K3; cbn [map]; rewrite IH; f_equal.
  - apply to_lower_id. unfold lower, upper in *. lia.
  - unfold to_lower, to_upper, upper in *. destruct (Z.leb_spec 65 c), (Z.leb_spec c 90); cbn [andb]; try lia.
    destruct (Z.leb_spec 97 (c + 32)), (Z.leb_spec (c + 32) 122); cbn [andb]; lia.
Qed.
Definition kindb (a b : kind) : bool := match a, b with Lo, Lo | Up, Up | Di, Di | Sy, Sy => true | _, _ => false end.
Definition countk (k : kind) (ks : list kind) : nat := length (filter (kindb k) ks).
Lemma default_lower c : lower c -> In c all_default.
Proof. intros H. apply in_or_app. left. apply in_or_app. left. apply C08_default_characters. exact H. Qed.
Lemma default_upper c : upper c -> In c all_default.
Proof. intros H. apply in_or_app. left. apply in_or_app. right. apply C08_default_characters. exact H. Qed.
Lemma default_digit c : digit c -> In c all_default.
Proof. intros H. apply in_or_app. right. apply in_or_app. left. apply C08_default_characters. exact H. Qed.
Lemma default_symbol c : In c Symbols -> In c all_default.
Proof. intros H. apply in_or_app. right. apply in_or_app. right. exact H. Qed.
Lemma kind_lower c : lower c -> kind_of c = Lo.
Proof.
  intros H. pose proof (kinds c (default_lower c H)) as K. destruct (kind_of c); [reflexivity| | |]; destruct K as [_ [_ [_ K]]];
    try (apply Symbols_ascii in K); unfold lower, upper, digit, isL in *; lia.
Qed.
Lemma kind_upper c : upper c -> kind_of c = Up.
Proof.
  intros H. pose proof (kinds c (default_upper c H)) as K. destruct (kind_of c); [|reflexivity| |]; destruct K as [_ [_ [_ K]]];
    try (apply Symbols_ascii in K); unfold lower, upper, digit, isL in *; lia.
Qed.
Lemma kind_digit c : digit c -> kind_of c = Di.
Proof.
  intros H. pose proof (kinds c (default_digit c H)) as K. destruct (kind_of c); [| |reflexivity|]; destruct K as [_ [_ [_ K]]];
    try (apply Symbols_ascii in K); unfold lower, upper, digit, isL in *; lia.
Qed.
Lemma kind_symbol c : In c Symbols -> kind_of c = Sy.
Proof.
  intros H. pose proof (kinds c (default_symbol c H)) as K. apply Symbols_ascii in H. destruct (kind_of c); [| | |reflexivity]; destruct K as [_ [_ [_ K]]];
    unfold lower, upper, digit, isL in *; lia.
Qed.
Lemma weave_props ks : forall ls ds ss, Forall lower ls -> Forall digit ds -> Forall (fun c => In c Symbols) ss ->
  (length ls = countk Lo ks + countk Up ks)%nat -> length ds = countk Di ks -> length ss = countk Sy ks ->
  let w := weave ks ls ds ss in
  Forall (fun c => In c all_default) w /\ map kind_of w = ks /\ map to_lower (Ls w) = ls /\ Ds w = ds /\ Ss w = ss /\ (countk Up ks = 0%nat -> Ls w = ls).
Proof.
  induction ks as [|k ks IH]; intros ls ds ss F1 F2 F3 L1 L2 L3.
  - cbn in *. destruct ls, ds, ss; try discriminate. repeat split; constructor.
  - destruct k; unfold countk in L1, L2, L3; cbn [filter kindb length] in L1, L2, L3; fold (countk Lo ks) (countk Up ks) (countk Di ks) (countk Sy ks) in L1, L2, L3; cbn [weave].
    + destruct ls as [|c ls]; [discriminate|]. inversion F1; subst. cbn [length] in L1. destruct (IH ls ds ss) as [I1 [I2 [I3 [I4 [I5 I6]]]]]; try assumption; [lia|].
      cbv zeta. set (w := weave ks ls ds ss) in *. pose proof (kinds c (default_lower c H1)) as K. rewrite (kind_lower c H1) in K. destruct K as [K1 [K2 [K3 _]]].
      unfold Ls, Ds, Ss in *. cbn [map filter]. rewrite K1, K2, K3, (kind_lower c H1). cbn [map]. rewrite I2, I3, I4, I5, (to_lower_id c) by (unfold lower, upper in *; lia).
      split; [constructor; [apply default_lower|]; assumption|]. repeat split. intros Z0. rewrite I6; [reflexivity|exact Z0].
    + destruct ls as [|c ls]; [cbn [length] in L1; lia|]. inversion F1; subst. cbn [length] in L1. destruct (IH ls ds ss) as [I1 [I2 [I3 [I4 [I5 I6]]]]]; try assumption; [lia|].
      cbv zeta. set (w := weave ks ls ds ss) in *. pose proof (upper_of c (or_intror H1)) as Hu.
      pose proof (kinds _ (default_upper _ Hu)) as K. rewrite (kind_upper _ Hu) in K. destruct K as [K1 [K2 [K3 _]]].
      unfold Ls, Ds, Ss in *. cbn [map filter]. rewrite K1, K2, K3, (kind_upper _ Hu). cbn [map]. rewrite I2, I3, I4, I5, to_lower_upper by exact H1.
      split; [constructor; [apply default_upper|]; assumption|]. repeat split. unfold countk. cbn [filter kindb length]. discriminate.
    + destruct ds as [|c ds]; [discriminate|]. inversion F2; subst. cbn [length] in L2. destruct (IH ls ds ss) as [I1 [I2 [I3 [I4 [I5 I6]]]]]; try assumption; [lia|].
      cbv zeta. set (w := weave ks ls ds ss) in *. pose proof (kinds c (default_digit c H1)) as K. rewrite (kind_digit c H1) in K. destruct K as [K1 [K2 [K3 _]]].
      unfold Ls, Ds, Ss in *. cbn [map filter]. rewrite K1, K2, K3, (kind_digit c H1). rewrite I2, I3, I4, I5.
      split; [constructor; [apply default_digit|]; assumption|]. repeat split. exact I6.
    + destruct ss as [|c ss]; [discriminate|]. inversion F3; subst. cbn [length] in L3. destruct (IH ls ds ss) as [I1 [I2 [I3 [I4 [I5 I6]]]]]; try assumption; [lia|].
      cbv zeta. set (w := weave ks ls ds ss) in *. pose proof (kinds c (default_symbol c H1)) as K. rewrite (kind_symbol c H1) in K. destruct K as [K1 [K2 [K3 _]]].
      unfold Ls, Ds, Ss in *. cbn [map filter]. rewrite K1, K2, K3, (kind_symbol c H1). rewrite I2, I3, I4, I5.
      split; [constructor; [apply default_symbol|]; assumption|]. repeat split. exact I6.
Qed.
Lemma kinds_counted w : Forall (fun c => In c all_default) w ->
  (countk Lo (map kind_of w) + countk Up (map kind_of w) = length (Ls w))%nat /\ countk Di (map kind_of w) = length (Ds w) /\ countk Sy (map kind_of w) = length (Ss w)
  /\ ((forall c, In c (Ls w) -> lower c) -> countk Up (map kind_of w) = 0%nat).
Proof.
  induction 1 as [|c w Hc _ [I1 [I2 [I3 I4]]]]; [repeat split|]. pose proof (kinds c Hc) as K. unfold Ls, Ds, Ss, countk in *. cbn [map filter].
  destruct (kind_of c) eqn:Ek; destruct K as [K1 [K2 [K3 K4]]]; rewrite K1, K2, K3; cbn [kindb length]; repeat split; try lia; intros Q.
  - apply I4. intros x Hx. apply Q. right. exact Hx.
  - specialize (Q c (or_introl eq_refl)). unfold lower, upper in *. lia.
  - apply I4, Q.
  - apply I4, Q.
Qed.

(** ** Choosing t characters from a set *)
(** All ways to choose t characters one after the other, with repeats or without. *)
Fixpoint selects (ar : bool) (set : list Z) (t : nat) : list (list Z) :=
  match t with
  | O => [[]]
  | S t' => flat_map (fun x => map (cons x) (selects ar (if ar then set else remove Z.eq_dec x set) t')) set
  end.
Lemma NoDup_remove_set x (l : list Z) : NoDup l -> NoDup (remove Z.eq_dec x l).
Proof.
  induction 1 as [|y l Hy N IH]; [constructor|]. cbn. destruct (Z.eq_dec x y); [exact IH|]. constructor; [|exact IH]. intros H. apply in_remove in H. tauto.
Qed.
Lemma remove_one x (l : list Z) : NoDup l -> In x l -> length (remove Z.eq_dec x l) = (length l - 1)%nat.
Proof.
  induction 1 as [|y l Hy N IH]; intros H; [destruct H|]. cbn. destruct (Z.eq_dec x y) as [->|Ne].
  - rewrite notin_remove by exact Hy. lia.
  - destruct H as [H|H]; [congruence|]. cbn [length]. rewrite IH by exact H. destruct l; [destruct H|]. cbn. lia.
Qed.
Lemma selects_in ar : forall t set l, In l (selects ar set t) <-> length l = t /\ (forall x, In x l -> In x set) /\ (ar = false -> NoDup l).
Proof.
  induction t as [|t IH]; intros set l; cbn [selects].
  - split.
    + intros [<-|[]]. split; [reflexivity|]. split; [intros x []|constructor].
    + intros [L _]. destruct l; [left; reflexivity|discriminate].
  - rewrite in_flat_map. split.
    + intros [x [Hx Hl]]. apply in_map_iff in Hl. destruct Hl as [l' [<- Hl']]. apply IH in Hl'. destruct Hl' as [L [I N]].
      split; [cbn; lia|]. split.
      * intros y [<-|Hy]; [exact Hx|]. specialize (I y Hy). destruct ar; [exact I|]. apply in_remove in I. tauto.
      * intros Ar. constructor; [|apply N, Ar]. intros H. apply I in H. subst ar. apply in_remove in H. tauto.
    + intros [L [I N]]. destruct l as [|x l]; [discriminate|]. exists x. split; [apply I; left; reflexivity|]. apply in_map. apply IH. split; [cbn in L; lia|]. split.
      * intros y Hy. destruct ar; [apply I; right; exact Hy|]. specialize (N eq_refl). inversion N; subst. apply in_in_remove; [intros ->; contradiction|apply I; right; exact Hy].
      * intros Ar. specialize (N Ar). inversion N; assumption.
Qed.
Lemma NoDup_both {A} (a b : list A) : NoDup a -> NoDup b -> (forall x, In x a -> In x b -> False) -> NoDup (a ++ b).
Proof.
  induction 1 as [|x a Hx N IH]; intros Nb D; [exact Nb|]. cbn. constructor.
  - rewrite in_app_iff. intros [Q|Q]; [contradiction|]. exact (D x (or_introl eq_refl) Q).
  - apply IH; [exact Nb|]. intros y H1 H2. exact (D y (or_intror H1) H2).
Qed.
Lemma NoDup_map_on {A B} (f : A -> B) l : NoDup l -> (forall x y, In x l -> In y l -> f x = f y -> x = y) -> NoDup (map f l).
Proof.
  induction 1 as [|x l Hx N IH]; intros I; [constructor|]. cbn. constructor.
  - intros Q. apply in_map_iff in Q. destruct Q as [y [E Hy]]. apply I in E; [|right; exact Hy|left; reflexivity]. subst. contradiction.
  - apply IH. intros a b Ha Hb. apply I; right; assumption.
Qed.
Lemma NoDup_pairs {A B} (a : list A) (b : list B) : NoDup a -> NoDup b -> NoDup (list_prod a b).
Proof.
  intros Na Nb. induction Na as [|x a Hx N IH]; [constructor|]. cbn. apply NoDup_both; [|exact IH|].
  - apply NoDup_map_on; [exact Nb|]. intros u v _ _ E. congruence.
  - intros [u v] H1 H2. apply in_map_iff in H1. destruct H1 as [z [E _]]. injection E as -> ->. apply in_prod_iff in H2. tauto.
Qed.
Lemma selects_NoDup ar : forall t set, NoDup set -> NoDup (selects ar set t).
Proof.
  induction t as [|t IH]; intros set N; cbn [selects]; [repeat constructor; intros []|].
  assert (G : forall l, NoDup l -> NoDup (flat_map (fun x => map (cons x) (selects ar (if ar then set else remove Z.eq_dec x set) t)) l)); [|apply G, N].
  induction 1 as [|x l Hx Nl IHl]; [constructor|]. cbn [flat_map]. apply NoDup_both; [|exact IHl|].
  - apply NoDup_map_on; [|congruence]. apply IH. destruct ar; [exact N|apply NoDup_remove_set, N].
  - intros w H1 H2. apply in_map_iff in H1. destruct H1 as [u [<- _]]. apply in_flat_map in H2. destruct H2 as [y [Hy H2]]. apply in_map_iff in H2. destruct H2 as [v [E _]].
    injection E as -> _. contradiction.
Qed.
(** n (n-1) ... (n-t+1) without repeats, n^t with. *)
Lemma selects_S ar set t K : (forall x, In x set -> length (selects ar (if ar then set else remove Z.eq_dec x set) t) = K) ->
  length (selects ar set (S t)) = (length set * K)%nat.
Proof.
  intros H. cbn [selects]. assert (G : forall l, (forall x, In x l -> In x set) ->
    length (flat_map (fun x => map (cons x) (selects ar (if ar then set else remove Z.eq_dec x set) t)) l) = (length l * K)%nat); [|apply G; auto].
  induction l as [|x l IHl]; intros I; [reflexivity|]. cbn [flat_map length]. rewrite app_length, map_length, H by (apply I; left; reflexivity).
  rewrite IHl by (intros y Hy; apply I; right; exact Hy). lia.
Qed.
