(** * C83: the passwords that follow a form are equally likely.

    Vocabulary: [shows] (FormProb: the form filled in with given letters, digits and symbols), [selections] and [all_bytes] as in C82,
    [default_generator] and the sets LowerLetters, Digits, Symbols (C08_default_characters). *)
From Coq Require Import String ZArith Arith List Bool Lia Permutation Factorial.
From Verif Require Import Utf8 PasswordModel PasswordProofs PasswordSpec PasswordCount PasswordUniform PasswordUniform2 PasswordProps PasswordProb PasswordProbProps.
From Verif Require Import FormModel FormSpec FormProps FormProb.
Import ListNotations.
Open Scope nat_scope.

(** ** Specification *)
(** On how many of the 256^N streams of N random bytes `generate --form` prints [o]. *)
Definition form_streams (fuel N : nat) (len n s : Z) (mixed unique : bool) (form o : list Z) : nat :=
  length (filter (fun st => match generate_run fuel st len n s mixed unique (Some form) with Ok u _ => list_eqb u o | _ => false end) (all_bytes N)).
(** The form has no 'a'. *)
Definition no_a (form : list Z) : Prop := ~ In 97%Z (runes form).
(** [o] is the form filled in; with --unique no letter (whatever its case), digit or symbol is used twice. *)
Definition form_outcome (unique : bool) (form o : list Z) : Prop :=
  exists ls ds ss, shows (runes form) o ls ds ss /\ (unique = true -> NoDup ls /\ NoDup ds /\ NoDup ss).
(** How often rune [r] stands in the form. *)
Definition places (r : Z) (form : list Z) : nat := count_occ Z.eq_dec (runes form) r.

(** ** Lemmas *)
Lemma countr_places r form : countr r (runes form) = Z.of_nat (places r form).
Proof.
  unfold places. induction (runes form) as [|c f IH]; [reflexivity|]. rewrite countr_cons, IH. cbn [count_occ]. destruct (Z.eq_dec c r), (Z.eqb_spec r c); lia.
Qed.
Lemma no_a_count form : no_a form -> countr ra (runes form) = 0%Z.
Proof. intros H. rewrite countr_places. unfold places, ra. rewrite (proj1 (count_occ_not_In Z.eq_dec _ _) H). reflexivity. Qed.
Lemma request f : countr ra f = 0%Z -> (form_length f - form_numbers f - form_symbols f = countr rx f + countr rX f /\ form_numbers f = countr rn f /\ form_symbols f = countr rs f)%Z.
Proof. intros H. unfold form_length, form_numbers, form_symbols. rewrite H. cbn [Z.div Z.div_eucl]. change (0 / 3)%Z with 0%Z. lia. Qed.
Lemma composed_in L D S_ c d s w : disjoint L D -> disjoint L S_ -> disjoint D S_ -> composed L D S_ c d s w -> Forall (fun b => In b (L ++ D ++ S_)) w.
Proof.
  intros D1 D2 D3 [Le [C1 [C2 C3]]]. rewrite <- C1, <- C2, <- C3 in Le. clear C1 C2 C3 c d s.
  assert (G : forall w, count_in L w + count_in D w + count_in S_ w <= length w).
  { clear w Le. induction w as [|x w IH]; [reflexivity|]. unfold count_in in *. cbn [filter length].
    destruct (memb x L) eqn:E1, (memb x D) eqn:E2, (memb x S_) eqn:E3; cbn [length]; try lia;
      repeat match goal with H : memb _ _ = true |- _ => apply memb_true in H end; exfalso; eauto. }
  induction w as [|x w IH]; [constructor|]. pose proof (G w) as Gw. unfold count_in in *. cbn [filter length] in Le.
  assert (In x (L ++ D ++ S_) /\ length w = length (filter (fun b => memb b L) w) + length (filter (fun b => memb b D) w) + length (filter (fun b => memb b S_) w)) as [I1 I2].
  { rewrite !in_app_iff. destruct (memb x L) eqn:E1, (memb x D) eqn:E2, (memb x S_) eqn:E3; cbn [length] in Le;
      repeat match goal with H : memb _ _ = true |- _ => apply memb_true in H end; try (exfalso; eauto; fail); (split; [tauto || lia|lia]). }
  constructor; [exact I1|apply IH, I2].
Qed.
Lemma letters_default nu : letters default_generator nu = if nu then LowerLetters else (LowerLetters ++ UpperLetters).
Proof. destruct nu; reflexivity. Qed.
Lemma valid_parts len nd ns nu ar w : valid_password default_generator len nd ns nu ar w ->
  Forall (fun c => In c all_default) w /\ length (Ls w) = Z.to_nat (len - nd - ns) /\ length (Ds w) = Z.to_nat nd /\ length (Ss w) = Z.to_nat ns
  /\ (nu = true -> forall c, In c (Ls w) -> lower c) /\ (ar = false -> NoDup w).
Proof.
  intros [C R]. destruct (C11_default_proper nu) as [_ [_ [_ [D1 [D2 D3]]]]].
  pose proof (composed_in _ _ _ _ _ _ _ D1 D2 D3 C) as I. destruct C as [Le [C1 [C2 C3]]].
  assert (AD : Forall (fun c => In c all_default) w).
  { eapply Forall_impl; [|exact I]. intros c Hc. unfold all_default. rewrite !in_app_iff in *. destruct nu; [|rewrite letters_default in Hc; rewrite in_app_iff in Hc]; tauto. }
  rewrite Forall_forall in I.
  assert (E : forall (p : Z -> bool) set, (forall c, In c w -> (p c = true <-> In c set)) -> filter p w = filter (fun b => memb b set) w).
  { intros p set H. apply filter_ext_in. intros c Hc. specialize (H c Hc). destruct (p c), (memb c set) eqn:E; try reflexivity.
    - rewrite (proj2 (memb_true c set)) in E by tauto. discriminate.
    - apply memb_true in E. apply H in E. discriminate. }
  pose proof class_of_letters as CL. pose proof class_of_digits as CD. pose proof class_of_symbols as CS. rewrite forallb_forall in CL, CD, CS.
  assert (IL : forall c, In c (letters default_generator nu) -> In c (LowerLetters ++ UpperLetters)) by (intros c Hc; rewrite letters_default in Hc; destruct nu; [apply in_or_app; left|]; exact Hc).
  assert (KL : forall c, In c w -> (letter_class c = true <-> In c (letters default_generator nu)) /\ (isNumber c = true <-> In c Digits) /\ (symbol_class c = true <-> In c Symbols)).
  { intros c Hc. specialize (I c Hc). rewrite !in_app_iff in I. destruct I as [I|[I|I]].
    - pose proof (CL c (IL c I)) as K. rewrite !andb_true_iff, !negb_true_iff in K. destruct K as [[K1 K2] K3].
      split; [tauto|]. split; (split; [congruence|intros H]); exfalso; [exact (D1 c I H)|exact (D2 c I H)].
    - pose proof (CD c I) as K. rewrite !andb_true_iff, !negb_true_iff in K. destruct K as [[K1 K2] K3].
      split; [|split; [tauto|]]; (split; [congruence|intros H]); exfalso; [exact (D1 c H I)|exact (D3 c I H)].
    - pose proof (CS c I) as K. rewrite !andb_true_iff, !negb_true_iff in K. destruct K as [[K1 K2] K3].
      split; [|split; [|tauto]]; (split; [congruence|intros H]); exfalso; [exact (D2 c H I)|exact (D3 c H I)]. }
  split; [exact AD|]. unfold Ls, Ds, Ss. rewrite (E letter_class (letters default_generator nu)), (E isNumber Digits), (E symbol_class Symbols) by (intros c Hc; apply KL, Hc).
  split; [exact C1|]. split; [exact C2|]. split; [exact C3|]. split; [|exact R].
  intros -> c Hc. apply filter_In in Hc. destruct Hc as [_ Hc]. apply memb_true in Hc. apply (C08_default_characters c). exact Hc.
Qed.
Lemma parts_valid len nd ns nu ar w : Forall (fun c => In c all_default) w -> length (Ls w) = Z.to_nat (len - nd - ns) -> length (Ds w) = Z.to_nat nd -> length (Ss w) = Z.to_nat ns ->
  (nu = true -> forall c, In c (Ls w) -> lower c) -> (ar = false -> NoDup w) -> valid_password default_generator len nd ns nu ar w.
Proof.
  intros AD L1 L2 L3 Lo N. split; [|exact N]. rewrite <- L1, <- L2, <- L3. destruct (C11_default_proper nu) as [_ [_ [_ [D1 [D2 D3]]]]].
  pose proof (split3 w AD) as P. rewrite Forall_forall in AD.
  apply perm_composed; try assumption; apply Forall_forall.
  - intros c Hc. rewrite letters_default. destruct nu.
    + apply C08_default_characters. apply Lo; [reflexivity|exact Hc].
    + apply filter_In in Hc. destruct Hc as [Hc K]. pose proof (kinds c (AD c Hc)) as Q. apply in_or_app. destruct (kind_of c); destruct Q as [Q1 [_ [_ Q2]]]; try congruence;
        [left|right]; apply C08_default_characters; exact Q2.
  - intros c Hc. apply filter_In in Hc. destruct Hc as [Hc K]. pose proof (kinds c (AD c Hc)) as Q. apply C08_default_characters. destruct (kind_of c); destruct Q as [_ [Q1 [_ Q2]]]; try congruence. exact Q2.
  - intros c Hc. apply filter_In in Hc. destruct Hc as [Hc K]. pose proof (kinds c (AD c Hc)) as Q. destruct (kind_of c); destruct Q as [_ [_ [Q1 Q2]]]; try congruence. exact Q2.
Qed.

(** Whether the valid password [w] is printed as [o]. *)
Definition printed (f w o : list Z) : bool := match fill f (Ls w) (Ds w) (Ss w) w with Some u => list_eqb u o | None => false end.
Lemma form_streams_split fuel N len n s mixed unique form o (all : list (list Z)) : let f := runes form in NoDup all ->
  (forall w, In w all <-> valid_password default_generator (form_length f) (form_numbers f) (form_symbols f) (negb mixed) (negb unique) w) ->
  form_streams fuel N len n s mixed unique form o =
  ssum all (fun w => if printed f w o then streams_for fuel default_generator N (form_length f) (form_numbers f) (form_symbols f) (negb mixed) (negb unique) w else 0).
Proof.
  cbv zeta. set (f := runes form). intros Nd IFF. destruct (form_nonneg f) as [P1 [P2 [P3 P4]]].
  set (G := fun st => Generate fuel default_generator st (form_length f) (form_numbers f) (form_symbols f) (negb mixed) (negb unique)).
  transitivity (ssum (all_bytes N) (fun st => ssum all (fun w => if match G st with Ok v _ => list_eqb v w | _ => false end then (if printed f w o then 1 else 0) else 0))).
  - unfold form_streams. rewrite length_filter_sum. apply (ssum_ext (all_bytes N)). intros st Hst. pose proof (all_bytes_bytes _ _ Hst) as B.
    cbn [generate_run]. fold f. change (Generate fuel (NewGenerator None) st (form_length f) (form_numbers f) (form_symbols f) (negb mixed) (negb unique)) with (G st).
    destruct (G st) as [v rest|e| |] eqn:E; try (rewrite ssum_zero; reflexivity).
    rewrite (ssum_ext all _ (fun w => if list_eqb v w then (if printed f v o then 1 else 0) else 0))
      by (intros w _; destruct (list_eqb v w) eqn:Ew; [apply list_eqb_true in Ew; subst; reflexivity|reflexivity]).
    rewrite pick_one; [|exact Nd|].
    + destruct (split_res _ _ _ _ _ _ _ _ _ B P1 P2 E) as [Asc _]. rewrite (runes_all_ascii v Asc). unfold printed, Ls, Ds, Ss, letter_class, symbol_class.
      destruct (fill f _ _ _ v); reflexivity.
    + apply IFF. eapply returned_valid_any; [apply C11_default_proper| |exact B|exact E].
      pose proof (countr_nonneg rx f). pose proof (countr_nonneg rX f). lia.
  - rewrite ssum_swap. apply ssum_ext. intros w _. unfold streams_for. rewrite length_filter_sum. fold G. destruct (printed f w o).
    + reflexivity.
    + rewrite (ssum_ext _ _ (fun _ => 0)); [apply ssum_zero|]. intros st _. destruct (match G st with Ok v _ => list_eqb v w | _ => false end); reflexivity.
Qed.

(** ** Equally many passwords become each outcome *)
Section Swap.
  Variables (f : list Z) (mixed unique : bool).
  Let valid w := valid_password default_generator (form_length f) (form_numbers f) (form_symbols f) (negb mixed) (negb unique) w.
  Lemma printed_iff w o ls ds ss : valid w -> shows f o ls ds ss -> (printed f w o = true <-> map to_lower (Ls w) = ls /\ Ds w = ds /\ Ss w = ss).
  Proof.
    intros V H. destruct (valid_parts _ _ _ _ _ _ V) as [AD [L1 [L2 [L3 _]]]]. destruct (shows_lengths _ _ _ _ _ H) as [_ [_ [_ [A0 _]]]].
    destruct (request f A0) as [R1 [R2 R3]].
    rewrite Forall_forall in AD.
    assert (FL : Forall isL (Ls w)).
    { apply Forall_forall. intros c Hc. apply filter_In in Hc. destruct Hc as [Hc K]. apply (all_default_class c (AD c Hc)), K. }
    assert (FD : Forall digit (Ds w)).
    { apply Forall_forall. intros c Hc. apply filter_In in Hc. destruct Hc as [Hc K]. apply (all_default_class c (AD c Hc)), K. }
    assert (FS : Forall (fun c => In c Symbols) (Ss w)).
    { apply Forall_forall. intros c Hc. apply filter_In in Hc. destruct Hc as [Hc K]. pose proof (kinds c (AD c Hc)) as Q. destruct (kind_of c); destruct Q as [_ [_ [Q1 Q2]]]; congruence. }
    pose proof (countr_nonneg rx f). pose proof (countr_nonneg rX f). pose proof (countr_nonneg rn f). pose proof (countr_nonneg rs f).
    unfold printed. split.
    - destruct (fill f (Ls w) (Ds w) (Ss w) w) as [u|] eqn:E; [|discriminate]. intros Q. apply list_eqb_true in Q. subst u.
      apply fill_shows in E; try assumption; try lia. apply (shows_inj _ _ _ _ _ E _ _ _ H).
    - intros [M [E2 E3]]. rewrite E2, E3. rewrite (shows_fill _ _ _ _ _ H (Ls w) w FL M). apply list_eqb_refl.
  Qed.
  Lemma swap_le (all : list (list Z)) o1 o2 ls1 ds1 ss1 ls2 ds2 ss2 : mixed = false \/ unique = false -> NoDup all -> (forall w, In w all <-> valid w) ->
    shows f o1 ls1 ds1 ss1 -> shows f o2 ls2 ds2 ss2 -> (unique = true -> NoDup ls2 /\ NoDup ds2 /\ NoDup ss2) ->
    length (filter (fun w => printed f w o1) all) <= length (filter (fun w => printed f w o2) all).
  Proof.
    intros MU Nd IFF H1 H2 U.
    set (g := fun w => weave (map kind_of w) ls2 ds2 ss2).
    destruct (shows_lengths _ _ _ _ _ H1) as [A1 [A2 [A3 [A0 _]]]]. destruct (shows_lengths _ _ _ _ _ H2) as [B1 [B2 [B3 [_ [F1 [F2 F3]]]]]].
    assert (Pr : forall w, In w (filter (fun w => printed f w o1) all) -> valid w /\ (map to_lower (Ls w) = ls1 /\ Ds w = ds1 /\ Ss w = ss1)).
    { intros w Hw. apply filter_In in Hw. destruct Hw as [Hw P]. apply IFF in Hw. split; [exact Hw|]. apply (printed_iff _ _ _ _ _ Hw H1), P. }
    assert (Wp : forall w, valid w /\ (map to_lower (Ls w) = ls1 /\ Ds w = ds1 /\ Ss w = ss1) ->
      (Forall (fun c => In c all_default) (g w) /\ map kind_of (g w) = map kind_of w /\ map to_lower (Ls (g w)) = ls2 /\ Ds (g w) = ds2 /\ Ss (g w) = ss2 /\ (countk Up (map kind_of w) = 0%nat -> Ls (g w) = ls2))).
    { intros w [V [E1 [E2 E3]]]. destruct (valid_parts _ _ _ _ _ _ V) as [AD _]. destruct (kinds_counted w AD) as [K1 [K2 [K3 _]]].
      apply (f_equal (@length Z)) in E1, E2, E3. rewrite map_length in E1. unfold g. apply weave_props; try assumption; lia. }
    rewrite <- (map_length g (filter (fun w => printed f w o1) all)). apply NoDup_incl_length.
    - apply NoDup_map_on; [apply NoDup_filter, Nd|]. intros x y Hx Hy E. apply Pr in Hx, Hy. pose proof (Wp x Hx) as [_ [Kx _]]. pose proof (Wp y Hy) as [_ [Ky _]].
      destruct Hx as [Vx [X1 [X2 X3]]]. destruct Hy as [Vy [Y1 [Y2 Y3]]].
      rewrite <- (weave_back x) by (apply (valid_parts _ _ _ _ _ _ Vx)). rewrite <- (weave_back y) by (apply (valid_parts _ _ _ _ _ _ Vy)).
      rewrite X1, X2, X3, Y1, Y2, Y3. f_equal. congruence.
    - intros u Hu. apply in_map_iff in Hu. destruct Hu as [w [<- Hw]]. apply Pr in Hw. pose proof (Wp w Hw) as [W1 [W2 [W3 [W4 [W5 W6]]]]]. destruct Hw as [V [E1 [E2 E3]]].
      destruct (valid_parts _ _ _ _ _ _ V) as [AD [L1 [L2 [L3 [Lo _]]]]]. destruct (kinds_counted w AD) as [_ [_ [_ K4]]].
      apply (f_equal (@length Z)) in E1, E2, E3. rewrite map_length in E1.
      assert (W3' := W3). apply (f_equal (@length Z)) in W3'. rewrite map_length in W3'.
      assert (Vg : valid (g w)).
      { apply parts_valid; try assumption; try (rewrite ?W4, ?W5; lia).
        - intros Hm. specialize (Lo Hm). rewrite (W6 (K4 Lo)). apply Forall_forall, F1.
        - intros Hu. destruct MU as [M|M]; [|rewrite M in Hu; discriminate]. rewrite M in Lo. specialize (Lo eq_refl). specialize (W6 (K4 Lo)).
          destruct U as [U1 [U2 U3]]; [destruct unique; [reflexivity|discriminate]|].
          eapply Permutation_NoDup; [apply Permutation_sym, split3, W1|]. change (NoDup (Ls (g w) ++ Ds (g w) ++ Ss (g w))). rewrite W6, W4, W5.
          rewrite Forall_forall in F1, F2, F3. apply NoDup_both; [exact U1| |].
          + apply NoDup_both; [exact U2|exact U3|]. intros x Q1 Q2. apply F2 in Q1. apply F3 in Q2. apply Symbols_ascii in Q2. tauto.
          + intros x Q1 Q2. apply F1 in Q1. apply in_app_or in Q2. destruct Q2 as [Q2|Q2]; [apply F2 in Q2; unfold lower, digit in *; lia|].
            apply F3, Symbols_ascii in Q2. unfold isL, lower in *. tauto. }
      apply filter_In. split; [apply IFF, Vg|]. apply (printed_iff _ _ _ _ _ Vg H2). auto.
  Qed.
End Swap.
Lemma form_streams_count fuel N len n s mixed unique form : let f := runes form in exists all K, NoDup all /\
  (forall w, In w all <-> valid_password default_generator (form_length f) (form_numbers f) (form_symbols f) (negb mixed) (negb unique) w) /\
  (forall w, In w all -> streams_for fuel default_generator N (form_length f) (form_numbers f) (form_symbols f) (negb mixed) (negb unique) w = K) /\
  forall o, form_streams fuel N len n s mixed unique form o = length (filter (fun w => printed f w o) all) * K.
Proof.
  cbv zeta. set (f := runes form).
  pose proof (C82_number default_generator (form_length f) (form_numbers f) (form_symbols f) (negb mixed) (negb unique) (C11_default_proper _)) as H.
  unfold numbers in H. destruct H as [all [Nd [IFF _]]].
  assert (EK : exists K, forall w, In w all -> streams_for fuel default_generator N (form_length f) (form_numbers f) (form_symbols f) (negb mixed) (negb unique) w = K).
  { destruct all as [|w0 l] eqn:Ea; [exists 0; intros w []|]. rewrite <- Ea in *. exists (streams_for fuel default_generator N (form_length f) (form_numbers f) (form_symbols f) (negb mixed) (negb unique) w0).
    intros w Hw. apply C11_generate_uniform; [apply C11_default_proper|apply IFF, Hw|apply IFF; rewrite Ea; left; reflexivity]. }
  destruct EK as [K EK]. exists all, K. split; [exact Nd|]. split; [exact IFF|]. split; [exact EK|]. intros o.
  rewrite (form_streams_split fuel N len n s mixed unique form o all Nd IFF). fold f.
  rewrite (ssum_ext all _ (fun w => if printed f w o then K else 0)) by (intros w Hw; rewrite (EK w Hw); reflexivity).
  rewrite <- (ssum_filter (fun w => printed f w o) all (fun _ => K)). apply ssum_const. reflexivity.
Qed.

(** ** Theorems *)
(** Without 'a' in the form, and unless --mixed and --unique are combined: for every number N of random bytes, the passwords that
    follow the form are printed on equally many of the N-byte streams. *)
Theorem C83_equally_likely fuel N len n s mixed unique form o1 o2 :
  no_a form -> mixed = false \/ unique = false -> form_outcome unique form o1 -> form_outcome unique form o2 ->
  form_streams fuel N len n s mixed unique form o1 = form_streams fuel N len n s mixed unique form o2.
Proof.
  intros _ MU [ls1 [ds1 [ss1 [H1 U1]]]] [ls2 [ds2 [ss2 [H2 U2]]]].
  destruct (form_streams_count fuel N len n s mixed unique form) as [all [K [Nd [IFF [_ H]]]]]. rewrite !H. f_equal. apply Nat.le_antisymm; eapply swap_le; eassumption.
Qed.
Print Assumptions C83_equally_likely.

(** What is printed is one of them. *)
Theorem C83_only_outcomes fuel rng len n s mixed unique form o rest : bytes rng -> no_a form -> mixed = false \/ unique = false ->
  generate_run fuel rng len n s mixed unique (Some form) = Ok o rest -> form_outcome unique form o.
Proof.
  intros B A MU E. pose proof (no_a_count form A) as A0. destruct (run_core _ _ _ _ _ _ _ _ _ _ B E) as [res [G [F _]]]. set (f := runes form) in *.
  destruct (form_nonneg f) as [P1 [P2 _]]. destruct (request f A0) as [R1 [R2 R3]].
  pose proof (countr_nonneg rx f). pose proof (countr_nonneg rX f). pose proof (countr_nonneg rn f). pose proof (countr_nonneg rs f).
  assert (V : valid_password default_generator (form_length f) (form_numbers f) (form_symbols f) (negb mixed) (negb unique) res)
    by (eapply returned_valid_any; [apply C11_default_proper| |exact B|exact G]; lia).
  destruct (valid_parts _ _ _ _ _ _ V) as [AD [L1 [L2 [L3 [Lo Nd]]]]]. assert (AD' := AD). rewrite Forall_forall in AD.
  assert (FL : Forall isL (Ls res)).
  { apply Forall_forall. intros c Hc. apply filter_In in Hc. destruct Hc as [Hc K]. apply (all_default_class c (AD c Hc)), K. }
  exists (map to_lower (Ls res)), (Ds res), (Ss res). split.
  - eapply fill_shows; [exact A0|exact FL| | | | | |exact F]; fold f; unfold Ls, Ds, Ss in *; try lia.
    + apply Forall_forall. intros c Hc. apply filter_In in Hc. destruct Hc as [Hc K]. apply (all_default_class c (AD c Hc)), K.
    + apply Forall_forall. intros c Hc. apply filter_In in Hc. destruct Hc as [Hc K]. pose proof (kinds c (AD c Hc)) as Q. destruct (kind_of c); destruct Q as [_ [_ [Q1 Q2]]]; congruence.
  - intros ->. destruct MU as [->|]; [|discriminate]. specialize (Nd eq_refl). specialize (Lo eq_refl).
    rewrite (map_ext_in to_lower (fun c => c)), map_id; [repeat split; apply NoDup_filter, Nd|].
    intros c Hc. apply to_lower_id. specialize (Lo c Hc). unfold lower, upper in *. lia.
Qed.
Print Assumptions C83_only_outcomes.

(** How many they are, and that almost every long stream suffices: each outcome has probability 1 over their number. *)
Lemma selects_selections ar : forall t set, NoDup set -> length (selects ar set t) = selections ar (length set) t.
Proof.
  induction t as [|t IH]; intros set N; [destruct ar; reflexivity|].
  rewrite (selects_S ar set t (selections ar (if ar then length set else length set - 1) t)).
  - destruct ar; reflexivity.
  - intros x Hx. destruct ar; [apply IH, N|]. rewrite IH by (apply NoDup_remove_set, N). rewrite remove_one by assumption. reflexivity.
Qed.
Lemma fill_total f : forall rs_ ds ss res, countr ra f = 0%Z ->
  Z.of_nat (length rs_) = (countr rx f + countr rX f)%Z -> Z.of_nat (length ds) = countr rn f -> Z.of_nat (length ss) = countr rs f ->
  exists o, fill f rs_ ds ss res = Some o.
Proof.
  induction f as [|c f IH]; intros rs_ ds ss res A L1 L2 L3; [eexists; reflexivity|].
  rewrite !countr_cons in *. cbn [fill]. pose proof (countr_nonneg ra f). pose proof (countr_nonneg rx f). pose proof (countr_nonneg rX f). pose proof (countr_nonneg rn f). pose proof (countr_nonneg rs f).
  unfold rx, rX, rn, rs, ra in *.
  destruct (Z.eqb_spec c 120) as [->|N1].
  { cbn [Z.eqb Pos.eqb] in A, L1, L2, L3. destruct rs_ as [|ch rs_]; cbn [length] in L1; [lia|]. destruct (IH rs_ ds ss res) as [o E]; try lia. rewrite E. eexists. reflexivity. }
  destruct (Z.eqb_spec c 88) as [->|N2].
  { cbn [Z.eqb Pos.eqb] in A, L1, L2, L3. destruct rs_ as [|ch rs_]; cbn [length] in L1; [lia|]. destruct (IH rs_ ds ss res) as [o E]; try lia. rewrite E. eexists. reflexivity. }
  destruct (Z.eqb_spec c 110) as [->|N3].
  { cbn [Z.eqb Pos.eqb] in A, L1, L2, L3. destruct ds as [|ch ds]; cbn [length] in L2; [lia|]. destruct (IH rs_ ds ss res) as [o E]; try lia. rewrite E. eexists. reflexivity. }
  destruct (Z.eqb_spec c 115) as [->|N4].
  { cbn [Z.eqb Pos.eqb] in A, L1, L2, L3. destruct ss as [|ch ss]; cbn [length] in L3; [lia|]. destruct (IH rs_ ds ss res) as [o E]; try lia. rewrite E. eexists. reflexivity. }
  destruct (Z.eqb_spec 97 c); [lia|]. destruct (Z.eqb_spec 120 c); [lia|]. destruct (Z.eqb_spec 88 c); [lia|]. destruct (Z.eqb_spec 110 c); [lia|]. destruct (Z.eqb_spec 115 c); [lia|].
  destruct (IH rs_ ds ss res) as [o E]; try lia. rewrite E. destruct (_ || _); [eexists; reflexivity|]. destruct (Z.eqb_spec c 97); [lia|]. eexists. reflexivity.
Qed.
Theorem C83_number unique form : no_a form ->
  exists all, NoDup all /\ (forall o, In o all <-> form_outcome unique form o) /\
    length all = selections (negb unique) 26 (places 120 form + places 88 form) * selections (negb unique) 10 (places 110 form) * selections (negb unique) 30 (places 115 form).
Proof.
  intros A. pose proof (no_a_count form A) as A0. set (ar := negb unique). set (f := runes form).
  set (tl := places 120 form + places 88 form). set (td := places 110 form). set (ts := places 115 form).
  assert (Tl : Z.of_nat tl = (countr rx f + countr rX f)%Z) by (unfold tl, f; rewrite !countr_places; unfold rx, rX; lia).
  assert (Td : Z.of_nat td = countr rn f) by (unfold td, f; rewrite countr_places; reflexivity).
  assert (Ts : Z.of_nat ts = countr rs f) by (unfold ts, f; rewrite countr_places; reflexivity).
  set (pairs := list_prod (selects ar LowerLetters tl) (list_prod (selects ar Digits td) (selects ar Symbols ts))).
  set (write := fun t : list Z * (list Z * list Z) => match fill f (fst t) (fst (snd t)) (snd (snd t)) [] with Some o => o | None => [] end).
  pose proof (C08_default_characters 0) as CH. destruct CH as [_ [_ [_ [_ N]]]].
  assert (N1 : NoDup LowerLetters) by (apply (C11_default_proper true)). assert (N2 : NoDup Digits) by (apply (C11_default_proper true)). assert (N3 : NoDup Symbols) by (apply (C11_default_proper true)).
  assert (W : forall t, In t pairs -> shows f (write t) (fst t) (fst (snd t)) (snd (snd t))).
  { intros [ls [ds ss]] H. apply in_prod_iff in H. destruct H as [H1 H]. apply in_prod_iff in H. destruct H as [H2 H3]. apply selects_in in H1, H2, H3. cbn [fst snd].
    destruct H1 as [L1 [I1 _]]. destruct H2 as [L2 [I2 _]]. destruct H3 as [L3 [I3 _]].
    assert (F1 : Forall lower ls) by (apply Forall_forall; intros c Hc; apply (C08_default_characters c), I1, Hc).
    assert (F2 : Forall digit ds) by (apply Forall_forall; intros c Hc; apply (C08_default_characters c), I2, Hc).
    assert (F3 : Forall (fun c => In c Symbols) ss) by (apply Forall_forall; exact I3).
    assert (FL : Forall isL ls) by (eapply Forall_impl; [|exact F1]; intros c Hc; right; exact Hc).
    destruct (fill_total f ls ds ss [] A0) as [o E]; try congruence. unfold write. cbn [fst snd]. rewrite E.
    apply fill_shows in E; try assumption; try congruence. rewrite (map_ext_in to_lower (fun c => c)), map_id in E; [exact E|].
    intros c Hc. apply to_lower_id. rewrite Forall_forall in F1. specialize (F1 c Hc). unfold lower, upper in *. lia. }
  exists (map write pairs). split; [|split].
  - apply NoDup_map_on.
    + repeat apply NoDup_pairs; apply selects_NoDup; assumption.
    + intros x y Hx Hy E. apply W in Hx, Hy. rewrite E in Hx. destruct (shows_inj _ _ _ _ _ Hx _ _ _ Hy) as [E1 [E2 E3]]. destruct x as [x1 [x2 x3]], y as [y1 [y2 y3]]. cbn in *. congruence.
  - intros o. split.
    + intros H. apply in_map_iff in H. destruct H as [t [<- Ht]]. exists (fst t), (fst (snd t)), (snd (snd t)). split; [apply W, Ht|]. intros U.
      destruct t as [ls [ds ss]]. apply in_prod_iff in Ht. destruct Ht as [H1 H]. apply in_prod_iff in H. destruct H as [H2 H3]. apply selects_in in H1, H2, H3. cbn [fst snd].
      unfold ar in *. rewrite U in *. cbn [negb] in *. tauto.
    + intros [ls [ds [ss [H U]]]]. destruct (shows_lengths _ _ _ _ _ H) as [L1 [L2 [L3 [_ [F1 [F2 F3]]]]]]. fold f in H, L1, L2, L3. apply in_map_iff. exists (ls, (ds, ss)).
      assert (Hin : In (ls, (ds, ss)) pairs).
      { rewrite Forall_forall in F1, F2, F3. apply in_prod_iff. split; [|apply in_prod_iff; split]; apply selects_in.
        - split; [lia|]. split; [intros x Hx; apply C08_default_characters, F1, Hx|]. intros Ar. apply U. destruct unique; [reflexivity|discriminate].
        - split; [lia|]. split; [intros x Hx; apply C08_default_characters, F2, Hx|]. intros Ar. apply U. destruct unique; [reflexivity|discriminate].
        - split; [lia|]. split; [exact F3|]. intros Ar. apply U. destruct unique; [reflexivity|discriminate]. }
      split; [|exact Hin]. eapply shows_fun; [apply W, Hin|exact H].
  - rewrite map_length. unfold pairs. rewrite !prod_length, !selects_selections by assumption. change (length LowerLetters) with 26. change (length Digits) with 10. change (length Symbols) with 30. lia.
Qed.
Print Assumptions C83_number.
(** The form is not refused: with --unique it asks for no more letters, digits and symbols than there are. *)
Definition form_possible (unique : bool) (form : list Z) : Prop :=
  unique = true -> places 120 form + places 88 form <= 26 /\ places 110 form <= 10 /\ places 115 form <= 30.
Theorem C83_probability len n s mixed unique form o : no_a form -> mixed = false \/ unique = false -> form_possible unique form -> form_outcome unique form o ->
  let number := selections (negb unique) 26 (places 120 form + places 88 form) * selections (negb unique) 10 (places 110 form) * selections (negb unique) 30 (places 115 form) in
  forall q, exists N0, forall N, N0 <= N -> exists F, forall fuel, F <= fuel ->
    number * form_streams fuel N len n s mixed unique form o <= 256 ^ N /\
    q * (256 ^ N - number * form_streams fuel N len n s mixed unique form o) <= 256 ^ N.
Proof.
  intros A MU Po O number q. pose proof (no_a_count form A) as A0. destruct (C83_number unique form A) as [outs [No [IFFo Cnt]]]. fold number in Cnt. set (f := runes form) in *.
  destruct (request f A0) as [R1 [R2 R3]].
  pose proof (countr_nonneg rx f). pose proof (countr_nonneg rX f). pose proof (countr_nonneg rn f). pose proof (countr_nonneg rs f).
  assert (Q : possible default_generator (form_length f) (form_numbers f) (form_symbols f) (negb mixed) (negb unique)).
  { split; [lia|]. split; [lia|]. split; [lia|]. intros U. destruct unique; [|discriminate]. specialize (Po eq_refl). destruct MU as [->|]; [|discriminate].
    change (length (letters default_generator (negb false))) with 26. change (length (digits default_generator)) with 10. change (length (symbols default_generator)) with 30.
    rewrite R1, R2, R3. unfold f. rewrite !countr_places. unfold rx, rX, rn, rs. lia. }
  destruct (C82_returns default_generator _ _ _ _ _ (C11_default_proper _) Q q) as [N0 H3]. exists N0. intros N HN. destruct (H3 N HN) as [F HF]. exists F. intros fuel Hf. specialize (HF fuel Hf).
  assert (Sum : answers fuel default_generator N (form_length f) (form_numbers f) (form_symbols f) (negb mixed) (negb unique) = number * form_streams fuel N len n s mixed unique form o).
  { rewrite <- Cnt. rewrite <- (ssum_const outs _ (fun u => form_streams fuel N len n s mixed unique form u)).
    2:{ intros u Hu. apply IFFo in Hu. apply C83_equally_likely; assumption. }
    unfold answers, form_streams. rewrite length_filter_sum.
    transitivity (ssum (all_bytes N) (fun st => ssum outs (fun u => if match generate_run fuel st len n s mixed unique (Some form) with Ok v _ => list_eqb v u | _ => false end then 1 else 0))).
    - apply (ssum_ext (all_bytes N)). intros st Hst. pose proof (all_bytes_bytes _ _ Hst) as B.
      destruct (generate_run fuel st len n s mixed unique (Some form)) as [v rest|e| |] eqn:E.
      + rewrite pick_one; [|exact No|apply IFFo; eapply C83_only_outcomes; eassumption].
        destruct (run_core _ _ _ _ _ _ _ _ _ _ B E) as [res [G _]]. fold f in G. change (NewGenerator None) with default_generator in G. rewrite G. reflexivity.
      + rewrite ssum_zero. cbn [generate_run] in E. fold f in E. change (NewGenerator None) with default_generator in E. destruct (Generate _ _ _ _ _ _ _ _); try reflexivity.
        destruct (fill f _ _ _ _); discriminate.
      + destruct (C37_never_panics _ _ _ _ _ _ _ _ B E).
      + rewrite ssum_zero. cbn [generate_run] in E. fold f in E. change (NewGenerator None) with default_generator in E. destruct (Generate _ _ _ _ _ _ _ _); try reflexivity.
        destruct (fill f _ _ _ _); discriminate.
    - rewrite ssum_swap. apply ssum_ext. intros u _. rewrite length_filter_sum. reflexivity. }
  assert (Le : answers fuel default_generator N (form_length f) (form_numbers f) (form_symbols f) (negb mixed) (negb unique) <= 256 ^ N).
  { unfold answers. rewrite <- all_bytes_count. set (p := fun _ : list Z => _). pose proof (filter_compl p (all_bytes N)). lia. }
  rewrite <- Sum. split; assumption.
Qed.
Print Assumptions C83_probability.

(** ** Where it fails *)
Lemma same_length (p : list Z -> bool) all l : NoDup all -> NoDup l -> (forall w, In w l <-> In w all /\ p w = true) -> length (filter p all) = length l.
Proof.
  intros Na Nl H. apply Nat.le_antisymm; apply NoDup_incl_length; try assumption; [apply NoDup_filter, Na| |].
  - intros w Hw. apply filter_In in Hw. apply H, Hw.
  - intros w Hw. apply filter_In, H, Hw.
Qed.
Lemma xx_passwords o a b all : lower a -> lower b ->
  shows [120; 120]%Z o [a; b] [] [] -> NoDup all -> (forall w, In w all <-> valid_password default_generator 2 0 0 false false w) ->
  length (filter (fun w => printed [120; 120]%Z w o) all) = if (a =? b)%Z then 2 else 4.
Proof.
  intros Ha Hb Sh Na IFF.
  assert (Pr : forall w, valid_password default_generator 2 0 0 false false w -> (printed [120; 120]%Z w o = true <-> map to_lower (Ls w) = [a; b] /\ Ds w = [] /\ Ss w = []))
    by (intros w V; exact (printed_iff [120; 120]%Z true true w o _ _ _ V Sh)).
  assert (Ca : forall x, isL x -> to_lower x = a -> x = a \/ x = (a - 32)%Z).
  { intros x Hx E. unfold isL, to_lower in *. destruct (Z.leb_spec 65 x), (Z.leb_spec x 90); cbn [andb] in E; lia. }
  assert (Cb : forall x, isL x -> to_lower x = b -> x = b \/ x = (b - 32)%Z).
  { intros x Hx E. unfold isL, to_lower in *. destruct (Z.leb_spec 65 x), (Z.leb_spec x 90); cbn [andb] in E; lia. }
  assert (Dw : forall w, valid_password default_generator 2 0 0 false false w -> map to_lower (Ls w) = [a; b] -> Ds w = [] -> Ss w = [] ->
    exists x y, w = [x; y] /\ (x = a \/ x = (a - 32)%Z) /\ (y = b \/ y = (b - 32)%Z) /\ x <> y).
  { intros w V M E2 E3. destruct (valid_parts _ _ _ _ _ _ V) as [AD [_ [_ [_ [_ Nd]]]]]. specialize (Nd eq_refl). pose proof (split3 w AD) as P.
    change (Permutation w (Ls w ++ Ds w ++ Ss w)) in P. rewrite E2, E3, !app_nil_r in P.
    assert (Lw : Ls w = w).
    { unfold Ls. apply filter_const_true. intros c Hc. eapply Permutation_in in Hc; [|exact P]. apply filter_In in Hc. tauto. }
    rewrite Lw in M. destruct w as [|x [|y [|z w]]]; try discriminate. cbn in M. injection M as M1 M2. rewrite Forall_forall in AD. unfold Ls in Lw.
    exists x, y. split; [reflexivity|].
    assert (Hx : In x (filter letter_class [x; y])) by (rewrite Lw; left; reflexivity). assert (Hy : In y (filter letter_class [x; y])) by (rewrite Lw; right; left; reflexivity).
    apply filter_In in Hx, Hy. destruct Hx as [Ix Kx]. destruct Hy as [Iy Ky].
    split; [apply Ca; [apply (all_default_class x (AD x Ix)), Kx|exact M1]|]. split; [apply Cb; [apply (all_default_class y (AD y Iy)), Ky|exact M2]|].
    intros ->. inversion Nd; subst. apply H1. left. reflexivity. }
  assert (Bk : forall x y, (x = a \/ x = (a - 32)%Z) -> (y = b \/ y = (b - 32)%Z) -> x <> y ->
    valid_password default_generator 2 0 0 false false [x; y] /\ map to_lower (Ls [x; y]) = [a; b] /\ Ds [x; y] = [] /\ Ss [x; y] = []).
  { intros x y Hx Hy Ne.
    assert (Kx : letter_class x = true /\ isNumber x = false /\ symbol_class x = false /\ In x all_default /\ to_lower x = a).
    { destruct Hx as [->| ->].
      - pose proof (kinds a (default_lower a Ha)) as K. rewrite (kind_lower a Ha) in K. repeat split; try apply K. apply default_lower, Ha. apply to_lower_id. unfold lower, upper in *; lia.
      - assert (U : upper (a - 32)) by (unfold upper, lower in *; lia). pose proof (kinds _ (default_upper _ U)) as K. rewrite (kind_upper _ U) in K. repeat split; try apply K. apply default_upper, U.
        unfold to_lower, lower in *. destruct (Z.leb_spec 65 (a - 32)), (Z.leb_spec (a - 32) 90); cbn [andb]; lia. }
    assert (Ky : letter_class y = true /\ isNumber y = false /\ symbol_class y = false /\ In y all_default /\ to_lower y = b).
    { destruct Hy as [->| ->].
      - pose proof (kinds b (default_lower b Hb)) as K. rewrite (kind_lower b Hb) in K. repeat split; try apply K. apply default_lower, Hb. apply to_lower_id. unfold lower, upper in *; lia.
      - assert (U : upper (b - 32)) by (unfold upper, lower in *; lia). pose proof (kinds _ (default_upper _ U)) as K. rewrite (kind_upper _ U) in K. repeat split; try apply K. apply default_upper, U.
        unfold to_lower, lower in *. destruct (Z.leb_spec 65 (b - 32)), (Z.leb_spec (b - 32) 90); cbn [andb]; lia. }
    destruct Kx as [X1 [X2 [X3 [X4 X5]]]]. destruct Ky as [Y1 [Y2 [Y3 [Y4 Y5]]]].
    unfold Ls, Ds, Ss. cbn [filter]. rewrite X1, X2, X3, Y1, Y2, Y3. cbn [map]. rewrite X5, Y5. split; [|auto].
    apply parts_valid; unfold Ls, Ds, Ss; cbn [filter]; rewrite ?X1, ?X2, ?X3, ?Y1, ?Y2, ?Y3; try reflexivity.
    - constructor; [exact X4|constructor; [exact Y4|constructor]].
    - discriminate.
    - intros _. constructor; [intros [E|[]]; congruence|]. constructor; [intros []|constructor]. }
  assert (Iff : forall w, In w all /\ printed [120; 120]%Z w o = true <-> exists x y, w = [x; y] /\ (x = a \/ x = (a - 32)%Z) /\ (y = b \/ y = (b - 32)%Z) /\ x <> y).
  { intros w. split.
    - intros [Hw P]. apply IFF in Hw. apply Pr in P; [|exact Hw]. apply Dw; tauto.
    - intros [x [y [-> [Hx [Hy Ne]]]]]. destruct (Bk x y Hx Hy Ne) as [V Q]. split; [apply IFF, V|]. apply Pr; assumption. }
  unfold lower in *.
  destruct (Z.eqb_spec a b) as [<-|Ne].
  - rewrite (same_length _ _ [[a; (a - 32)%Z]; [(a - 32)%Z; a]]); [reflexivity|exact Na| |].
    + constructor; [intros [E|[]]; injection E; lia|]. constructor; [intros []|constructor].
    + intros w. rewrite Iff. split.
      * intros [<-|[<-|[]]]; eexists _, _; (split; [reflexivity|]); repeat split; auto; lia.
      * intros [x [y [-> [[->| ->] [[->| ->] N]]]]]; try congruence; [left|right; left]; reflexivity.
  - rewrite (same_length _ _ [[a; b]; [a; (b - 32)%Z]; [(a - 32)%Z; b]; [(a - 32)%Z; (b - 32)%Z]]); [reflexivity|exact Na| |].
    + repeat (constructor; [cbn [In]; intros Q; repeat destruct Q as [Q|Q]; try injection Q; try contradiction; lia|]). constructor.
    + intros w. rewrite Iff. split.
      * intros [<-|[<-|[<-|[<-|[]]]]]; eexists _, _; (split; [reflexivity|]); repeat split; auto; lia.
      * intros [x [y [-> [[->| ->] [[->| ->] N]]]]]; cbn [In]; auto.
Qed.
(** --mixed with --unique: a letter twice is half as likely as two different letters. *)
Theorem C83_mixed_unique_refuted fuel N len n s a b : lower a -> lower b -> a <> b ->
  form_outcome false (fm "xx") [a; b] /\ form_outcome false (fm "xx") [a; a] /\
  form_streams fuel N len n s true true (fm "xx") [a; b] = 2 * form_streams fuel N len n s true true (fm "xx") [a; a].
Proof.
  intros Ha Hb Ne. assert (Sh : forall x y, lower x -> lower y -> shows (runes (fm "xx")) [x; y] [x; y] [] []).
  { intros x y Hx Hy. change (runes (fm "xx")) with [120; 120]%Z. repeat (constructor; [assumption|]). constructor. }
  split; [exists [a; b], [], []; split; [apply Sh; assumption|discriminate]|]. split; [exists [a; a], [], []; split; [apply Sh; assumption|discriminate]|].
  destruct (form_streams_count fuel N len n s true true (fm "xx")) as [all [K [Nd [IFF [_ H]]]]]. rewrite !H.
  change (runes (fm "xx")) with [120; 120]%Z in *. rewrite (xx_passwords _ a b all Ha Hb (Sh a b Ha Hb) Nd IFF), (xx_passwords _ a a all Ha Ha (Sh a a Ha Ha) Nd IFF).
  rewrite Z.eqb_refl. destruct (Z.eqb_spec a b); [contradiction|]. lia.
Qed.
Print Assumptions C83_mixed_unique_refuted.
(** An 'a' is the letter an x repeats: "ax" never prints two different letters, though the form allows it and the same letter is printed. *)
Lemma ax_twice fuel rng len n s unique out rest : bytes rng ->
  generate_run fuel rng len n s false unique (Some (fm "ax")) = Ok out rest -> exists c, out = [c; c].
Proof.
  intros B E. destruct (run_core _ _ _ _ _ _ _ _ _ _ B E) as [res [G [F R]]].
  change (runes (fm "ax")) with [97; 120]%Z in *.
  destruct (form_nonneg [97; 120]%Z) as [P1 [P2 _]].
  destruct (split_res _ _ _ _ _ _ _ _ _ B P1 P2 G) as [Asc [L1 [L2 [L3 [L4 [AD Lo]]]]]]. specialize (Lo eq_refl).
  cbn in L1, L2, L3, L4.
  destruct res as [|a [|b [|c res]]]; cbn [length] in L4; try lia.
  assert (Ka : letter_class a = true).
  { destruct (letter_class a) eqn:Ka; [reflexivity|]. exfalso. cbn [filter] in L1. rewrite Ka in L1.
    destruct (letter_class b); cbn [length] in L1; lia. }
  cbn [filter] in F, Lo. rewrite Ka in F, Lo. cbn in F. inversion F; subst. inversion Lo as [|x l Ha _]; subst.
  inversion Asc; subst. exists a. rewrite string_of_byte_ascii by assumption.
  assert (Tl : to_lower a = a).
  { assert (K : forallb (fun c => to_lower c =? c)%Z LowerLetters = true) by reflexivity.
    rewrite forallb_forall in K. apply Z.eqb_eq, K, Ha. }
  rewrite Tl, encode_ascii by assumption. reflexivity.
Qed.
Theorem C83_a_refuted fuel N len n s unique a b : lower a -> lower b -> a <> b ->
  follows (fun c => lower c \/ digit c) (runes (fm "ax")) [a; b] /\ form_streams fuel N len n s false unique (fm "ax") [a; b] = 0.
Proof.
  intros Ha Hb Ne. split; [change (runes (fm "ax")) with [97; 120]%Z; apply F_a; [left; exact Ha|]; apply F_x; [exact Hb|apply F_nil]|].
  unfold form_streams. rewrite filter_const_false; [reflexivity|]. intros st Hst. destruct (generate_run _ _ _ _ _ _ _ _) as [u rest| | |] eqn:E; try reflexivity.
  apply ax_twice in E; [|eapply all_bytes_bytes, Hst]. destruct E as [c ->]. destruct (list_eqb [c; c] [a; b]) eqn:Q; [|reflexivity]. apply list_eqb_true in Q. congruence.
Qed.
Print Assumptions C83_a_refuted.

(** ** The hypotheses are met *)
(** With --unique "n-Xx" has 10*26*25 outcomes, "7-Qk" is one; with --mixed --unique "xx" is printed as a letter twice on some 3-byte streams. *)
Lemma filter_pos {A} (p : A -> bool) l x : In x l -> p x = true -> 0 < length (filter p l).
Proof. intros H E. assert (I : In x (filter p l)) by (apply filter_In; auto). destruct (filter p l); [destruct I|cbn; lia]. Qed.
Example C83_case : no_a (fm "n-Xx") /\ form_possible true (fm "n-Xx") /\ form_outcome true (fm "n-Xx") (fm "7-Qk") /\
  (places 120 (fm "n-Xx") = 1 /\ places 88 (fm "n-Xx") = 1 /\ places 110 (fm "n-Xx") = 1 /\ places 115 (fm "n-Xx") = 0) /\
  selections false 26 2 = 650 /\ selections false 10 1 = 10 /\ selections false 30 0 = 1 /\
  0 < form_streams 9 3 10 2 2 true true (fm "xx") (fm "aa").
Proof.
  split; [intros H; vm_compute in H; intuition discriminate|]. split; [intros _; vm_compute; lia|]. split.
  { exists (fm "qk"), (fm "7"), []. split.
    + change (runes (fm "n-Xx")) with [110; 45; 88; 120]%Z. change (fm "7-Qk") with [55; 45; 113 - 32; 107]%Z. change (fm "qk") with [113; 107]%Z. change (fm "7") with [55]%Z.
      constructor; [unfold digit; lia|]. apply Sh_sep; [left; reflexivity|]. constructor; [unfold lower; lia|]. constructor; [unfold lower; lia|]. constructor.
    + intros _. repeat split; apply nodup_check_ok; reflexivity. }
  split; [repeat split; vm_compute; reflexivity|]. do 3 (split; [reflexivity|]).
  unfold form_streams. apply filter_pos with (x := [0; 26; 0]%Z); [apply (proj1 (all_bytes_iff [0; 26; 0]%Z)); repeat constructor; lia|vm_compute; reflexivity].
Qed.
