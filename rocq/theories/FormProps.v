(** * Property C37: passwords generated from a form. *)
From Coq Require Import String ZArith List Bool Lia Permutation.
From Verif Require Import Utf8 PasswordModel PasswordProofs PasswordSpec PasswordCount PasswordUniform2 PasswordProps FormModel FormSpec.
Import ListNotations.
Open Scope Z_scope.

(** ** Classes of the default sets *)
Definition all_default : list Z := (LowerLetters ++ UpperLetters) ++ Digits ++ Symbols.
Definition letter_class c := negb (isNumber c) && negb (isSymbol c).
Definition symbol_class c := negb (isNumber c) && isSymbol c.
Lemma class_of_letters : forallb (fun c => letter_class c && negb (isNumber c) && negb (symbol_class c)) (LowerLetters ++ UpperLetters) = true.
Proof. reflexivity. Qed.
Lemma class_of_digits : forallb (fun c => isNumber c && negb (letter_class c) && negb (symbol_class c)) Digits = true.
Proof. reflexivity. Qed.
Lemma class_of_symbols : forallb (fun c => symbol_class c && negb (letter_class c) && negb (isNumber c)) Symbols = true.
Proof. reflexivity. Qed.

Lemma filter_perm {A} (p : A -> bool) a b : Permutation a b -> Permutation (filter p a) (filter p b).
Proof.
  intros P. induction P; cbn [filter].
  - constructor.
  - destruct (p x); [constructor; assumption|assumption].
  - destruct (p x), (p y); try apply Permutation_refl. apply perm_swap.
  - eapply Permutation_trans; eassumption.
Qed.

Lemma split_res fuel rng len nd ns nu ar res rest : bytes rng -> 0 <= nd -> 0 <= ns ->
  Generate fuel (NewGenerator None) rng len nd ns nu ar = Ok res rest ->
  ascii res /\ Z.of_nat (length (filter letter_class res)) = len - nd - ns
  /\ Z.of_nat (length (filter isNumber res)) = nd /\ Z.of_nat (length (filter symbol_class res)) = ns
  /\ Z.of_nat (length res) = len
  /\ Forall (fun c => In c all_default) res
  /\ (nu = true -> Forall (fun c => In c LowerLetters) (filter letter_class res)).
Proof.
  intros B Hd Hs E. destruct (C08_composition _ _ _ _ _ _ _ _ _ _ B default_ascii Hd Hs E)
    as [L [ls [ds [ss [P [L1 [L2 [L3 [I1 [I2 I3]]]]]]]]]].
  change (digits (NewGenerator None)) with Digits in *. change (symbols (NewGenerator None)) with Symbols in *.
  change (lowerLetters (NewGenerator None)) with LowerLetters in *. change (upperLetters (NewGenerator None)) with UpperLetters in *.
  assert (I1' : forall b, In b ls -> In b (LowerLetters ++ UpperLetters))
    by (intros b Hb; apply in_or_app; destruct (I1 b Hb) as [H|[_ H]]; auto).
  pose proof class_of_letters as CL. pose proof class_of_digits as CD. pose proof class_of_symbols as CS.
  rewrite forallb_forall in CL, CD, CS.
  assert (KL : forall b, In b ls -> letter_class b = true /\ isNumber b = false /\ symbol_class b = false).
  { intros b Hb. specialize (CL b (I1' b Hb)). rewrite !andb_true_iff, !negb_true_iff in CL. tauto. }
  assert (KD : forall b, In b ds -> letter_class b = false /\ isNumber b = true /\ symbol_class b = false).
  { intros b Hb. specialize (CD b (I2 b Hb)). rewrite !andb_true_iff, !negb_true_iff in CD. tauto. }
  assert (KS : forall b, In b ss -> letter_class b = false /\ isNumber b = false /\ symbol_class b = true).
  { intros b Hb. specialize (CS b (I3 b Hb)). rewrite !andb_true_iff, !negb_true_iff in CS. tauto. }
  assert (FL : Permutation (filter letter_class res) ls).
  { eapply Permutation_trans; [apply filter_perm, P|]. rewrite !filter_app.
    rewrite (filter_const_true ls), (filter_const_false ds), (filter_const_false ss), !app_nil_r; [apply Permutation_refl| | |];
      intros b Hb; [apply KS in Hb|apply KD in Hb|apply KL in Hb]; tauto. }
  assert (FD : Permutation (filter isNumber res) ds).
  { eapply Permutation_trans; [apply filter_perm, P|]. rewrite !filter_app.
    rewrite (filter_const_false ls), (filter_const_true ds), (filter_const_false ss), !app_nil_r; [apply Permutation_refl| | |];
      intros b Hb; [apply KS in Hb|apply KD in Hb|apply KL in Hb]; tauto. }
  assert (FS : Permutation (filter symbol_class res) ss).
  { eapply Permutation_trans; [apply filter_perm, P|]. rewrite !filter_app.
    rewrite (filter_const_false ls), (filter_const_false ds), (filter_const_true ss); [apply Permutation_refl| | |];
      intros b Hb; [apply KS in Hb|apply KD in Hb|apply KL in Hb]; tauto. }
  assert (AD : Forall (fun c => In c all_default) res).
  { apply Forall_forall. intros c Hc. eapply Permutation_in in Hc; [|exact P]. unfold all_default.
    apply in_app_or in Hc. destruct Hc as [Hc|Hc]; [apply in_or_app; left; auto|].
    apply in_app_or in Hc. apply in_or_app. right. apply in_or_app. destruct Hc; auto. }
  split.
  { eapply ascii_incl; [|exact AD]. apply ascii_of_forallb. reflexivity. }
  rewrite (Permutation_length FL), (Permutation_length FD), (Permutation_length FS).
  repeat (split; [assumption|]). intros ->. apply Forall_forall. intros c Hc.
  eapply Permutation_in in Hc; [|exact FL]. destruct (I1 c Hc) as [H|[H _]]; [exact H|discriminate].
Qed.

(** ** The filling loop *)
Lemma encode_ascii c : 0 <= c < 128 -> encode c = [c].
Proof.
  intros H. unfold encode, surrogate, in_range.
  destruct (Z.ltb_spec c 0); [lia|]. destruct (Z.gtb_spec c 1114111); [lia|].
  destruct (Z.leb_spec 55296 c); [lia|]. cbn [orb andb]. destruct (Z.ltb_spec c 128); [reflexivity|lia].
Qed.

Definition isL c := 65 <= c <= 90 \/ 97 <= c <= 122.
Definition default_char c := isL c \/ digit c \/ symbol c.
Lemma lower_of c : isL c -> lower (to_lower c).
Proof. unfold isL, lower, to_lower. intros H. destruct (Z.leb_spec 65 c), (Z.leb_spec c 90); cbn; lia. Qed.
Lemma upper_of c : isL c -> upper (to_upper c).
Proof. unfold isL, upper, to_upper. intros H. destruct (Z.leb_spec 97 c), (Z.leb_spec c 122); cbn; lia. Qed.

Lemma all_default_class c : In c all_default -> default_char c /\ (letter_class c = true -> isL c)
  /\ (isNumber c = true -> digit c) /\ (symbol_class c = true -> symbol c).
Proof.
  intros H.
  assert (K : forallb (fun c => Bool.eqb (letter_class c) (((65 <=? c) && (c <=? 90)) || ((97 <=? c) && (c <=? 122)))
     && Bool.eqb (symbol_class c) (negb (letter_class c) && negb (isNumber c) && (33 <=? c) && (c <=? 126))
     && (letter_class c || isNumber c || symbol_class c)) all_default = true) by reflexivity.
  rewrite forallb_forall in K. specialize (K c H). rewrite !andb_true_iff in K. destruct K as [[K1 K2] K3].
  apply eqb_prop in K1, K2.
  assert (A1 : letter_class c = true -> isL c).
  { intros X. rewrite X in K1. symmetry in K1. apply orb_true_iff in K1. rewrite !andb_true_iff, !Z.leb_le in K1. exact K1. }
  assert (A2 : isNumber c = true -> digit c).
  { unfold isNumber, digit. rewrite andb_true_iff, !Z.leb_le. auto. }
  assert (A3 : symbol_class c = true -> symbol c).
  { intros X. rewrite X in K2. symmetry in K2. rewrite !andb_true_iff, !negb_true_iff, !Z.leb_le in K2.
    destruct K2 as [[[K4 K5] K6] K7]. rewrite K4 in K1. symmetry in K1. apply orb_false_iff in K1.
    destruct K1 as [K8 K9]. apply andb_false_iff in K8, K9. rewrite !Z.leb_gt in K8, K9.
    unfold isNumber in K5. apply andb_false_iff in K5. rewrite !Z.leb_gt in K5.
    unfold symbol, lower, upper, digit. lia. }
  split; [|auto]. unfold default_char. rewrite !orb_true_iff in K3. destruct K3 as [[K3|K3]|K3]; auto.
Qed.

Definition isep (c : Z) : bool := (c =? rdash) || (c =? runder) || (c =? rslash) || (c =? rback) || (c =? rhash).
Lemma isep_spec c : isep c = true <-> separator c.
Proof. unfold isep, separator, rdash, runder, rslash, rback, rhash. rewrite !orb_true_iff, !Z.eqb_eq. tauto. Qed.

Lemma countr_cons r c f : countr r (c :: f) = (if r =? c then 1 else 0) + countr r f.
Proof. unfold countr. cbn [filter]. destruct (r =? c); cbn [length]; lia. Qed.
Lemma countr_nonneg r f : 0 <= countr r f.
Proof. unfold countr. lia. Qed.

Ltac eqbs := repeat match goal with
  | H : context [if (?a =? ?b) then 1 else 0] |- _ => first [change (if a =? b then 1 else 0) with 1 in H | change (if a =? b then 1 else 0) with 0 in H]
  end.
Lemma fill_ok (A : Z -> Prop) form : forall chars numbers symbols res,
  countr rx form + countr rX form <= Z.of_nat (length chars) ->
  countr rn form <= Z.of_nat (length numbers) -> countr rs form <= Z.of_nat (length symbols) ->
  countr ra form <= Z.of_nat (length res) ->
  Forall isL chars -> Forall digit numbers -> Forall symbol symbols -> Forall A res -> (forall c, A c -> 0 <= c < 128) ->
  exists out, fill form chars numbers symbols res = Some out /\ follows A form out.
Proof.
  induction form as [|c form IH]; intros chars numbers symbols res H1 H2 H3 H4 F1 F2 F3 F4 HA.
  - exists []. split; [reflexivity|constructor].
  - pose proof (countr_nonneg rx form). pose proof (countr_nonneg rX form). pose proof (countr_nonneg rn form).
    pose proof (countr_nonneg rs form). pose proof (countr_nonneg ra form).
    rewrite !countr_cons in H1. rewrite countr_cons in H2, H3, H4. cbn [fill].
    destruct (Z.eqb_spec c rx) as [->|Nx].
    { eqbs. destruct chars as [|ch chars]; [cbn [length] in H1; lia|].
      inversion F1; subst. destruct (IH chars numbers symbols res) as [o [E O]]; auto; try (cbn [length] in H1; lia).
      rewrite E. cbn [option_map]. eexists. split; [reflexivity|]. pose proof (lower_of ch ltac:(assumption)) as Lo.
      rewrite encode_ascii by (unfold lower in Lo; lia). constructor; assumption. }
    destruct (Z.eqb_spec c rX) as [->|NX].
    { eqbs. destruct chars as [|ch chars]; [cbn [length] in H1; lia|].
      inversion F1; subst. destruct (IH chars numbers symbols res) as [o [E O]]; auto; try (cbn [length] in H1; lia).
      rewrite E. cbn [option_map]. eexists. split; [reflexivity|]. pose proof (upper_of ch ltac:(assumption)) as Lo.
      rewrite encode_ascii by (unfold upper in Lo; lia). constructor; assumption. }
    destruct (Z.eqb_spec c rn) as [->|Nn].
    { eqbs. destruct numbers as [|ch numbers]; [cbn [length] in H2; lia|].
      inversion F2; subst. destruct (IH chars numbers symbols res) as [o [E O]]; auto; try (cbn [length] in H2; lia).
      rewrite E. cbn [option_map]. eexists. split; [reflexivity|].
      rewrite encode_ascii by (unfold digit in *; lia). constructor; assumption. }
    destruct (Z.eqb_spec c rs) as [->|Ns].
    { eqbs. destruct symbols as [|ch symbols]; [cbn [length] in H3; lia|].
      inversion F3; subst. destruct (IH chars numbers symbols res) as [o [E O]]; auto; try (cbn [length] in H3; lia).
      rewrite E. cbn [option_map]. eexists. split; [reflexivity|].
      rewrite encode_ascii by (unfold symbol in *; lia). constructor; assumption. }
    assert (Hsh : (if rx =? c then 1 else 0) = 0 /\ (if rX =? c then 1 else 0) = 0 /\ (if rn =? c then 1 else 0) = 0 /\ (if rs =? c then 1 else 0) = 0).
    { destruct (Z.eqb_spec rx c), (Z.eqb_spec rX c), (Z.eqb_spec rn c), (Z.eqb_spec rs c); try congruence. lia. }
    fold (isep c). destruct (isep c) eqn:Sp.
    { destruct (IH chars numbers symbols res) as [o [E O]]; auto; try lia.
      { destruct (ra =? c); lia. }
      rewrite E. cbn [option_map]. eexists. split; [reflexivity|]. apply isep_spec in Sp.
      rewrite encode_ascii by (unfold separator in Sp; lia). apply F_sep; assumption. }
    destruct (Z.eqb_spec c ra) as [->|Na].
    { rewrite Z.eqb_refl in H4. destruct res as [|ch res]; [cbn [length] in H4; lia|].
      inversion F4; subst. destruct (IH chars numbers symbols res) as [o [E O]]; auto; try (cbn [length] in H4; lia).
      rewrite E. cbn [option_map]. eexists. split; [reflexivity|].
      rewrite string_of_byte_ascii by auto. constructor; assumption. }
    destruct (IH chars numbers symbols res) as [o [E O]]; auto; try lia.
    { destruct (ra =? c); lia. }
    exists o. split; [exact E|]. apply F_other; auto.
    intros X. apply isep_spec in X. congruence.
Qed.

Lemma form_nonneg f : 0 <= form_numbers f /\ 0 <= form_symbols f
  /\ form_length f - form_numbers f - form_symbols f = countr rx f + countr rX f + (countr ra f - countr ra f / 3)
  /\ 0 <= countr ra f / 3 <= countr ra f.
Proof.
  unfold form_length, form_numbers, form_symbols. pose proof (countr_nonneg ra f). pose proof (countr_nonneg rn f). pose proof (countr_nonneg rs f).
  pose proof (Z.div_pos (countr ra f) 3 ltac:(lia) ltac:(lia)).
  assert (countr ra f / 3 <= countr ra f) by (apply Z.div_le_upper_bound; lia).
  set (q := countr ra f / 3) in *. lia.
Qed.

(** What the code lets 'a' become: any character of the password; a symbol only if the form has an s. *)
Definition may_be_a (form : list Z) (c : Z) : Prop :=
  lower c \/ upper c \/ digit c \/ (In 115 form /\ symbol c).

Lemma run_core fuel rng len n s mixed unique form out rest : bytes rng ->
  generate_run fuel rng len n s mixed unique (Some form) = Ok out rest ->
  exists res, Generate fuel (NewGenerator None) rng (form_length (runes form)) (form_numbers (runes form)) (form_symbols (runes form)) (negb mixed) (negb unique) = Ok res rest
    /\ fill (runes form) (filter letter_class res) (filter isNumber res) (filter symbol_class res) res = Some out
    /\ runes res = res.
Proof.
  intros B E. cbn [generate_run] in E. set (f := runes form) in *.
  destruct (Generate fuel (NewGenerator None) rng (form_length f) (form_numbers f) (form_symbols f) (negb mixed) (negb unique)) as [res r0|e| |] eqn:G; try discriminate.
  destruct (form_nonneg f) as [P1 [P2 _]].
  destruct (split_res _ _ _ _ _ _ _ _ _ B P1 P2 G) as [Asc _].
  rewrite (runes_all_ascii res Asc) in E.
  unfold letter_class, symbol_class.
  destruct (fill f _ _ _ res) as [o|] eqn:Fi; [|discriminate]. inversion E; subst.
  exists res. split; [reflexivity|]. split; [exact Fi|]. apply runes_all_ascii, Asc.
Qed.

Lemma fill_run fuel rng f nu ar res rest : bytes rng ->
  Generate fuel (NewGenerator None) rng (form_length f) (form_numbers f) (form_symbols f) nu ar = Ok res rest ->
  exists out, fill f (filter letter_class res) (filter isNumber res) (filter symbol_class res) res = Some out
    /\ follows (may_be_a f) f out.
Proof.
  intros B G. destruct (form_nonneg f) as [P1 [P2 [P3 P4]]].
  destruct (split_res _ _ _ _ _ _ _ _ _ B P1 P2 G) as [Asc [L1 [L2 [L3 [L4 [AD _]]]]]].
  assert (AD' := AD). rewrite Forall_forall in AD'.
  apply fill_ok; try lia.
  - unfold form_numbers in L2. pose proof (countr_nonneg rn f). lia.
  - unfold form_symbols in L3. lia.
  - pose proof (countr_nonneg rx f). pose proof (countr_nonneg rX f). unfold form_numbers, form_symbols in *.
    pose proof (countr_nonneg rn f). pose proof (countr_nonneg rs f). unfold form_length, form_numbers, form_symbols in L4. lia.
  - apply Forall_forall. intros c Hc. apply filter_In in Hc. apply all_default_class; [apply AD', Hc|apply Hc].
  - apply Forall_forall. intros c Hc. apply filter_In in Hc. apply all_default_class; [apply AD', Hc|apply Hc].
  - apply Forall_forall. intros c Hc. apply filter_In in Hc. apply all_default_class; [apply AD', Hc|apply Hc].
  - apply Forall_forall. intros c Hc. pose proof (all_default_class c (AD' c Hc)) as [D [_ [_ S]]].
    unfold may_be_a. destruct D as [[D|D]|[D|D]]; unfold lower, upper; auto.
    right. right. right. split; [|exact D].
    assert (Sc : symbol_class c = true).
    { destruct D as [D1 [D2 [D3 D4]]]. unfold lower, upper, digit in *. unfold symbol_class.
      assert (isNumber c = false) as -> by (unfold isNumber; apply andb_false_iff; rewrite !Z.leb_gt; lia).
      assert (isLetter c = false) as K.
      { destruct (isLetter c) eqn:Le; [|reflexivity]. exfalso. unfold isLetter in Le. apply existsb_exists in Le.
        destruct Le as [x [Hx Ex]]. apply Z.eqb_eq in Ex. subst x.
        assert (K : forallb (fun c => ((65 <=? c) && (c <=? 90)) || ((97 <=? c) && (c <=? 122))) (LowerLetters ++ UpperLetters) = true) by reflexivity.
        rewrite forallb_forall in K. specialize (K c Hx). apply orb_true_iff in K. rewrite !andb_true_iff, !Z.leb_le in K. lia. }
      unfold isSymbol. rewrite K. unfold isNumber.
      destruct (Z.leb_spec 48 c), (Z.leb_spec c 57); try reflexivity. lia. }
    assert (Hin : In c (filter symbol_class res)) by (apply filter_In; auto).
    destruct (filter symbol_class res) as [|z l]; [destruct Hin|]. cbn [length] in L3. unfold form_symbols, countr in L3.
    destruct (filter (Z.eqb rs) f) as [|y l2] eqn:Fe; [cbn [length] in L3; lia|].
    assert (In y (filter (Z.eqb rs) f)) as Hy by (rewrite Fe; left; reflexivity).
    apply filter_In in Hy. destruct Hy as [Hy Ey]. apply Z.eqb_eq in Ey. subst y. exact Hy.
  - intros c Hc. unfold may_be_a, lower, upper, digit, symbol in Hc. lia.
Qed.

(** ** Theorems *)
Theorem C37_form_followed fuel rng len n s mixed unique form out rest : bytes rng ->
  generate_run fuel rng len n s mixed unique (Some form) = Ok out rest ->
  follows (may_be_a (runes form)) (runes form) out.
Proof.
  intros B E. destruct (run_core _ _ _ _ _ _ _ _ _ _ B E) as [res [G [F _]]].
  destruct (fill_run _ _ _ _ _ _ _ B G) as [o [F2 Fo]]. rewrite F in F2. inversion F2; subst. exact Fo.
Qed.
Print Assumptions C37_form_followed.

Lemma follows_mono (A B : Z -> Prop) f o : (forall c, A c -> B c) -> follows A f o -> follows B f o.
Proof.
  intros H F. induction F.
  - apply F_nil.
  - apply F_x; assumption.
  - apply F_X; assumption.
  - apply F_n; assumption.
  - apply F_s; assumption.
  - apply F_a; auto.
  - apply F_sep; assumption.
  - apply F_other; assumption.
Qed.
(** Forms without s: 'a' is a letter or a digit, as documented. *)
Theorem C37_alnum_without_symbols fuel rng len n s mixed unique form out rest : bytes rng ->
  ~ In 115 (runes form) ->
  generate_run fuel rng len n s mixed unique (Some form) = Ok out rest ->
  follows (fun c => lower c \/ upper c \/ digit c) (runes form) out.
Proof.
  intros B N E. eapply follows_mono; [|exact (C37_form_followed _ _ _ _ _ _ _ _ _ _ B E)].
  unfold may_be_a. tauto.
Qed.
Print Assumptions C37_alnum_without_symbols.

(** The command never panics, form or not, whatever the flags and the random bytes. *)
Theorem C37_never_panics fuel rng len n s mixed unique form : bytes rng ->
  generate_run fuel rng len n s mixed unique form <> Panic.
Proof.
  intros B. destruct form as [form|]; cbn [generate_run].
  - set (f := runes form).
    pose proof (C10_refused_exactly fuel None rng (form_length f) (form_numbers f) (form_symbols f) (negb mixed) (negb unique)) as C.
    cbv zeta in C. destruct C as [_ [_ [_ [_ C]]]].
    destruct (Generate fuel (NewGenerator None) rng (form_length f) (form_numbers f) (form_symbols f) (negb mixed) (negb unique)) as [res r0|e| |] eqn:G;
      try discriminate; [|contradiction].
    destruct (form_nonneg f) as [P1 [P2 _]].
    destruct (split_res _ _ _ _ _ _ _ _ _ B P1 P2 G) as [Asc _]. rewrite (runes_all_ascii res Asc).
    destruct (fill_run _ _ _ _ _ _ _ B G) as [o [F2 _]]. unfold letter_class, symbol_class in F2. rewrite F2. discriminate.
  - apply (C10_refused_exactly fuel None rng len n s (negb mixed) (negb unique)).
Qed.
Print Assumptions C37_never_panics.

(** With repeats allowed no form is refused: the only error is the random source's. *)
Theorem C37_form_not_refused rng len n s mixed form : bytes rng ->
  exists fuel0, forall fuel, (fuel0 <= fuel)%nat ->
    (exists out rest, generate_run fuel rng len n s mixed false (Some form) = Ok out rest)
    \/ generate_run fuel rng len n s mixed false (Some form) = Err ErrReader.
Proof.
  intros B. set (f := runes form). destruct (form_nonneg f) as [P1 [P2 [P3 P4]]].
  destruct (C10_only_reader_errors None rng (form_length f) (form_numbers f) (form_symbols f) (negb mixed) true B) as [fuel0 H].
  - repeat split; cbn; lia.
  - pose proof (countr_nonneg rx f). pose proof (countr_nonneg rX f). lia.
  - discriminate.
  - exists fuel0. intros fuel Hf. destruct (H fuel Hf) as [[w [rest G]]|G].
    + left. cbn [generate_run]. fold f. change (negb false) with true. rewrite G.
      destruct (split_res _ _ _ _ _ _ _ _ _ B P1 P2 G) as [Asc _]. rewrite (runes_all_ascii w Asc).
      destruct (fill_run _ _ _ _ _ _ _ B G) as [o [F2 _]]. unfold letter_class, symbol_class in F2. rewrite F2. eauto.
    + right. cbn [generate_run]. fold f. change (negb false) with true. rewrite G. reflexivity.
Qed.
Print Assumptions C37_form_not_refused.

Definition fm (s : string) : list Z := bytes_of_string s.
Example C37_example : exists out rest,
  generate_run 99 [3;1;7;0;4;2;3;9;3;1;0;4;2;1;6;5;4;3;2;1] 0 0 0 false true (Some (fm "xX-n x?s")) = Ok out rest
  /\ out = fm "aD-2b(" /\ bytes [3;1;7;0;4;2;3;9;3;1;0;4;2;1;6;5;4;3;2;1].
Proof. vm_compute. eexists. eexists. split; [reflexivity|]. split; [reflexivity|]. repeat constructor; discriminate. Qed.

(** 'a' documented as "letter or number" can become a symbol. *)
Theorem C37_a_may_be_symbol_refuted : exists rng out,
  bytes rng /\ generate_run 9 rng 10 2 2 false false (Some (fm "as")) = Ok out []
  /\ ~ follows (fun c => lower c \/ upper c \/ digit c) (runes (fm "as")) out.
Proof.
  exists [0; 0; 0]. eexists. split; [repeat constructor; lia|]. split; [vm_compute; reflexivity|].
  intros F. change (runes (fm "as")) with [97; 115] in F.
  inversion F; subst; try congruence; unfold lower, upper, digit, separator in *; lia.
Qed.
Print Assumptions C37_a_may_be_symbol_refuted.

(** --unique is honoured by forms of x, X, n, s alone when --mixed is off ... *)
Definition plain_form (c : Z) : Prop := c = 120 \/ c = 88 \/ c = 110 \/ c = 115.
Lemma to_lower_upper c : lower c -> to_lower (to_upper c) = c.
Proof.
  unfold lower, to_lower, to_upper. intros H. destruct (Z.leb_spec 97 c), (Z.leb_spec c 122); try lia. cbn [andb].
  destruct (Z.leb_spec 65 (c - 32)), (Z.leb_spec (c - 32) 90); cbn; lia.
Qed.
Lemma to_lower_id c : ~ upper c -> to_lower c = c.
Proof. unfold upper, to_lower. intros H. destruct (Z.leb_spec 65 c), (Z.leb_spec c 90); cbn; lia. Qed.
Lemma fill_plain form : Forall plain_form form -> forall chars numbers symbols res out,
  Forall lower chars -> Forall digit numbers -> Forall symbol symbols ->
  fill form chars numbers symbols res = Some out ->
  exists left, Permutation (map to_lower out ++ left) (chars ++ numbers ++ symbols).
Proof.
  induction 1 as [|c form Hc _ IH]; intros chars numbers symbols res out F1 F2 F3 E.
  - inversion E; subst. eexists. apply Permutation_refl.
  - destruct Hc as [->|[->|[->| ->]]]; cbn in E.
    + destruct chars as [|ch chars]; [discriminate|]. destruct (fill form chars numbers symbols res) as [o|] eqn:Ef; [|discriminate].
      inversion F1; subst. inversion E; subst. destruct (IH _ _ _ _ _ H2 F2 F3 Ef) as [l P]. exists l.
      rewrite (to_lower_id ch) by (unfold lower, upper in *; lia). rewrite encode_ascii by (unfold lower in *; lia).
      cbn [app map]. rewrite (to_lower_id ch) by (unfold lower, upper in *; lia). constructor. exact P.
    + destruct chars as [|ch chars]; [discriminate|]. destruct (fill form chars numbers symbols res) as [o|] eqn:Ef; [|discriminate].
      inversion F1; subst. inversion E; subst. destruct (IH _ _ _ _ _ H2 F2 F3 Ef) as [l P]. exists l.
      pose proof (upper_of ch (or_intror H1)) as U.
      rewrite encode_ascii by (unfold upper in U; lia).
      cbn [app map]. rewrite to_lower_upper by assumption. constructor. exact P.
    + destruct numbers as [|ch numbers]; [discriminate|]. destruct (fill form chars numbers symbols res) as [o|] eqn:Ef; [|discriminate].
      inversion F2; subst. inversion E; subst. destruct (IH _ _ _ _ _ F1 H2 F3 Ef) as [l P]. exists l.
      rewrite encode_ascii by (unfold digit in *; lia).
      cbn [app map]. rewrite to_lower_id by (unfold digit, upper in *; lia).
      apply Permutation_cons_app. exact P.
    + destruct symbols as [|ch symbols]; [discriminate|]. destruct (fill form chars numbers symbols res) as [o|] eqn:Ef; [|discriminate].
      inversion F3; subst. inversion E; subst. destruct (IH _ _ _ _ _ F1 F2 H2 Ef) as [l P]. exists l.
      rewrite encode_ascii by (unfold symbol in *; lia).
      cbn [app map]. rewrite to_lower_id by (unfold symbol in *; tauto).
      rewrite app_assoc. apply Permutation_cons_app. rewrite <- app_assoc. exact P.
Qed.
Lemma NoDup_map_back (f : Z -> Z) l : NoDup (map f l) -> NoDup l.
Proof.
  induction l as [|x l IH]; intros H; [constructor|]. cbn in H. inversion H; subst. constructor; [|auto].
  intros Hx. apply H2. apply in_map. exact Hx.
Qed.
Lemma split3 res : Forall (fun c => In c all_default) res ->
  Permutation res (filter letter_class res ++ filter isNumber res ++ filter symbol_class res).
Proof.
  induction 1 as [|c res Hc _ IH]; [constructor|].
  assert (K : forallb (fun c => match letter_class c, isNumber c, symbol_class c with
     | true, false, false => true | false, true, false => true | false, false, true => true | _, _, _ => false end) all_default = true) by reflexivity.
  rewrite forallb_forall in K. specialize (K c Hc). cbn [filter].
  destruct (letter_class c), (isNumber c), (symbol_class c); try discriminate.
  - constructor. exact IH.
  - cbn [app]. apply Permutation_cons_app. exact IH.
  - rewrite app_assoc. apply Permutation_cons_app. rewrite <- app_assoc. exact IH.
Qed.
Theorem C37_unique_plain fuel rng len n s form out rest : bytes rng ->
  Forall plain_form (runes form) ->
  generate_run fuel rng len n s false true (Some form) = Ok out rest -> NoDup out.
Proof.
  intros B Pf E. destruct (run_core _ _ _ _ _ _ _ _ _ _ B E) as [res [G [F _]]].
  destruct (form_nonneg (runes form)) as [P1 [P2 _]].
  destruct (split_res _ _ _ _ _ _ _ _ _ B P1 P2 G) as [_ [_ [_ [_ [_ [AD Lo]]]]]]. specialize (Lo eq_refl).
  pose proof (C09_no_repeats _ _ _ _ _ _ _ _ _ B default_ascii G) as Nd.
  assert (AD' := AD). rewrite Forall_forall in AD'.
  destruct (fill_plain _ Pf _ _ _ _ _ ltac:(
      apply Forall_forall; intros c Hc; rewrite Forall_forall in Lo;
      assert (K : forallb (fun c => (97 <=? c) && (c <=? 122)) LowerLetters = true) by reflexivity;
      rewrite forallb_forall in K; specialize (K c (Lo c Hc)); rewrite andb_true_iff, !Z.leb_le in K; exact K)
    ltac:(apply Forall_forall; intros c Hc; apply filter_In in Hc; apply all_default_class; [apply AD', Hc|apply Hc])
    ltac:(apply Forall_forall; intros c Hc; apply filter_In in Hc; apply all_default_class; [apply AD', Hc|apply Hc]) F) as [left P].
  apply (Permutation_NoDup (split3 res AD)) in Nd. apply (Permutation_NoDup (Permutation_sym P)) in Nd.
  apply NoDup_app_left in Nd. apply NoDup_map_back in Nd. exact Nd.
Qed.
Print Assumptions C37_unique_plain.
(** ... but not with --mixed: two x can become the same letter. *)
Theorem C37_unique_mixed_refuted : exists rng out,
  bytes rng /\ generate_run 9 rng 10 2 2 true true (Some (fm "xx")) = Ok out [] /\ ~ NoDup out.
Proof.
  exists [0; 26; 0]. eexists. split; [repeat constructor; lia|]. split; [vm_compute; reflexivity|].
  intros N. inversion N; subst. apply H1. left. reflexivity.
Qed.
Print Assumptions C37_unique_mixed_refuted.

(** --unique is violated by 'a': form "ax" always prints the same letter twice. *)
Theorem C37_unique_refuted fuel rng len n s mixed out rest : bytes rng ->
  generate_run fuel rng len n s mixed true (Some (fm "ax")) = Ok out rest ->
  mixed = false -> exists c, out = [c; c].
Proof.
  intros B E ->. destruct (run_core _ _ _ _ _ _ _ _ _ _ B E) as [res [G [F R]]].
  change (runes (fm "ax")) with [97; 120] in *.
  destruct (form_nonneg [97; 120]) as [P1 [P2 _]].
  destruct (split_res _ _ _ _ _ _ _ _ _ B P1 P2 G) as [Asc [L1 [L2 [L3 [L4 [AD Lo]]]]]]. specialize (Lo eq_refl).
  cbn in L1, L2, L3, L4.
  destruct res as [|a [|b [|c res]]]; cbn [length] in L4; try lia.
  assert (Ka : letter_class a = true).
  { destruct (letter_class a) eqn:Ka; [reflexivity|]. exfalso. cbn [filter] in L1. rewrite Ka in L1.
    destruct (letter_class b); cbn [length] in L1; lia. }
  cbn [filter] in F, Lo. rewrite Ka in F, Lo. cbn in F. inversion F; subst. inversion Lo as [|x l Ha _]; subst.
  inversion Asc; subst. exists a. rewrite string_of_byte_ascii by assumption.
  assert (Tl : to_lower a = a).
  { assert (K : forallb (fun c => to_lower c =? c) LowerLetters = true) by reflexivity.
    rewrite forallb_forall in K. apply Z.eqb_eq, K, Ha. }
  rewrite Tl, encode_ascii by assumption. reflexivity.
Qed.
Print Assumptions C37_unique_refuted.
Example C37_unique_refuted_example : exists out, generate_run 9 [4; 7; 1] 10 2 2 false true (Some (fm "ax")) = Ok out [].
Proof. vm_compute. eexists. reflexivity. Qed.
