(** * Proofs about the password generator. *)
From Coq Require Import ZArith List Bool Lia Permutation.
From Verif Require Import PasswordModel.
Import ListNotations.
Open Scope Z_scope.

Definition bytes (l : list Z) : Prop := Forall (fun b => 0 <= b < 256) l.
Definition ascii (l : list Z) : Prop := Forall (fun b => 0 <= b < 128) l.

Lemma Forall_skipn {A} (P : A -> Prop) n l : Forall P l -> Forall P (skipn n l).
Proof. intros H. rewrite <- (firstn_skipn n l) in H. apply Forall_app in H. apply H. Qed.
Lemma Forall_firstn {A} (P : A -> Prop) n l : Forall P l -> Forall P (firstn n l).
Proof. intros H. rewrite <- (firstn_skipn n l) in H. apply Forall_app in H. apply H. Qed.

Lemma big_endian_acc bs : forall a, fold_left (fun a b => a * 256 + b) bs a = a * 256 ^ Z.of_nat (length bs) + big_endian bs.
Proof.
  unfold big_endian. induction bs as [|b bs IH]; intros a; cbn [fold_left length].
  - rewrite Z.pow_0_r. lia.
  - rewrite (IH (a * 256 + b)), (IH (0 * 256 + b)). rewrite Nat2Z.inj_succ, Z.pow_succ_r by lia. lia.
Qed.
Lemma big_endian_cons b bs : big_endian (b :: bs) = b * 256 ^ Z.of_nat (length bs) + big_endian bs.
Proof. unfold big_endian at 1. cbn [fold_left]. rewrite big_endian_acc. lia. Qed.
Lemma big_endian_bound bs : bytes bs -> 0 <= big_endian bs < 256 ^ Z.of_nat (length bs).
Proof.
  induction bs as [|b bs IH]; intros H; [cbn; lia|]. inversion H; subst.
  rewrite big_endian_cons. cbn [length]. rewrite Nat2Z.inj_succ, Z.pow_succ_r by lia.
  specialize (IH ltac:(assumption)). nia.
Qed.
Lemma mask_first_bytes b bs : 0 <= b <= 8 -> bytes bs -> bytes (mask_first b bs).
Proof.
  intros Hb H. destruct bs as [|x bs]; [constructor|]. inversion H; subst. constructor; [|assumption].
  replace (2 ^ b - 1) with (Z.ones b) by (rewrite Z.ones_equiv; lia).
  rewrite Z.land_ones by lia.
  assert (0 < 2 ^ b) by (apply Z.pow_pos_nonneg; lia).
  assert (2 ^ b <= 2 ^ 8) by (apply Z.pow_le_mono_r; lia). change (2 ^ 8) with 256 in *.
  pose proof (Z.mod_pos_bound x (2 ^ b)). lia.
Qed.

(** The stream only shrinks. *)
Definition suffix (rest rng : list Z) : Prop := exists used, rng = used ++ rest.
Lemma suffix_refl l : suffix l l. Proof. exists []; reflexivity. Qed.
Lemma suffix_trans a b c : suffix a b -> suffix b c -> suffix a c.
Proof. intros [u ->] [v ->]. exists (v ++ u). apply app_assoc. Qed.
Lemma suffix_skipn n l : suffix (skipn n l) l.
Proof. exists (firstn n l). symmetry. apply firstn_skipn. Qed.
Lemma suffix_bytes a b : suffix a b -> bytes b -> bytes a.
Proof. intros [u ->] H. apply Forall_app in H. apply H. Qed.
Lemma suffix_length a b : suffix a b -> (length a <= length b)%nat.
Proof. intros [u ->]. rewrite app_length. lia. Qed.

Lemma rand_loop_ok fuel k b max : 0 <= b <= 8 -> forall rng n rest, bytes rng ->
  rand_loop fuel k b max rng = Ok n rest ->
  0 <= n < max /\ suffix rest rng /\ (length rest + k <= length rng)%nat.
Proof.
  intros Hb. induction fuel as [|f IH]; intros rng n rest H E; cbn [rand_loop] in E; [discriminate|].
  destruct (Nat.ltb_spec (length rng) k) as [L|L]; [discriminate|].
  destruct (Z.ltb_spec (big_endian (mask_first b (firstn k rng))) max) as [M|M].
  - inversion E; subst.
    pose proof (big_endian_bound (mask_first b (firstn k rng))) as B.
    specialize (B (mask_first_bytes _ _ Hb (Forall_firstn _ _ _ H))).
    split; [lia|]. split; [apply suffix_skipn|]. rewrite skipn_length. lia.
  - apply IH in E; [|apply Forall_skipn, H]. destruct E as [E1 [E2 E3]].
    split; [exact E1|]. split; [apply (suffix_trans _ _ _ E2), suffix_skipn|].
    rewrite skipn_length in E3. lia.
Qed.
Lemma bit_len_pos n : 0 < n -> 0 < bit_len n.
Proof. intros H. unfold bit_len. destruct (Z.leb_spec n 0); [lia|]. pose proof (Z.log2_nonneg n). lia. Qed.
Lemma top_bits bl : 0 < bl -> let b := if bl mod 8 =? 0 then 8 else bl mod 8 in 0 <= b <= 8.
Proof. intros H. cbv zeta. pose proof (Z.mod_pos_bound bl 8). destruct (_ =? 0); lia. Qed.
Lemma rand_Int_ok rng max n rest : bytes rng -> rand_Int rng max = Ok n rest ->
  0 <= n < max /\ suffix rest rng /\ (2 <= max -> (length rest < length rng)%nat).
Proof.
  intros H E. unfold rand_Int in E. destruct (Z.leb_spec max 0) as [M|M]; [discriminate|].
  destruct (Z.eqb_spec (bit_len (max - 1)) 0) as [B|B].
  - inversion E; subst. split; [lia|]. split; [apply suffix_refl|].
    intros H2. pose proof (bit_len_pos (max - 1)). lia.
  - assert (0 < bit_len (max - 1)).
    { unfold bit_len in *. destruct (Z.leb_spec (max - 1) 0); [lia|]. pose proof (Z.log2_nonneg (max - 1)). lia. }
    apply rand_loop_ok in E; [|apply top_bits; assumption|exact H].
    destruct E as [E1 [E2 E3]]. split; [exact E1|]. split; [exact E2|]. intros _.
    assert (1 <= Z.to_nat ((bit_len (max - 1) + 7) / 8))%nat.
    { assert (1 <= (bit_len (max - 1) + 7) / 8) by (apply Z.div_le_lower_bound; lia). lia. }
    lia.
Qed.
Lemma rand_loop_shape fuel k b max rng :
  (exists n rest, rand_loop fuel k b max rng = Ok n rest) \/ rand_loop fuel k b max rng = Err ErrReader.
Proof.
  revert rng. induction fuel as [|f IH]; intros rng; cbn [rand_loop]; [auto|].
  destruct (_ <? k)%nat; [auto|]. destruct (_ <? max); eauto.
Qed.
Lemma rand_Int_shape rng max :
  (max <= 0 /\ rand_Int rng max = Panic) \/
  (0 < max /\ ((exists n rest, rand_Int rng max = Ok n rest) \/ rand_Int rng max = Err ErrReader)).
Proof.
  unfold rand_Int. destruct (Z.leb_spec max 0); [auto|]. right. split; [assumption|].
  destruct (_ =? 0); [eauto|]. apply rand_loop_shape.
Qed.

(** ** One pick *)
Lemma string_of_byte_ascii b : 0 <= b < 128 -> string_of_byte b = [b].
Proof. intros H. unfold string_of_byte. destruct (Z.ltb_spec b 128); [reflexivity|lia]. Qed.
Lemma hp_nil s : has_prefix s [] = true.
Proof. destruct s; reflexivity. Qed.
Lemma contains_single s x : contains s [x] = true <-> In x s.
Proof.
  induction s as [|y s IH]; cbn [contains has_prefix In].
  - split; [discriminate|contradiction].
  - rewrite hp_nil, andb_true_r, orb_true_iff, IH, Z.eqb_eq. intuition.
Qed.

Lemma insert_perm i (s v : list Z) : Permutation (firstn i s ++ v ++ skipn i s) (s ++ v).
Proof.
  rewrite <- (firstn_skipn i s) at 3. rewrite <- app_assoc. apply Permutation_app_head, Permutation_app_comm.
Qed.

Lemma nth_In_Z (s : list Z) n : 0 <= n < Z.of_nat (length s) -> In (nth (Z.to_nat n) s 0) s.
Proof. intros H. apply nth_In. lia. Qed.

Lemma randomElement_ok rng s ch rest : bytes rng -> randomElement rng s = Ok ch rest ->
  (exists b, In b s /\ ch = string_of_byte b) /\ suffix rest rng /\ (2 <= length s -> length rest < length rng)%nat.
Proof.
  unfold randomElement. intros H E.
  destruct (rand_Int rng (Z.of_nat (length s))) as [n r|e| |] eqn:R; try discriminate.
  inversion E; subst. apply rand_Int_ok in R; [|exact H]. destruct R as [R1 [R2 R3]].
  split; [|split; [exact R2 | intros; apply R3; lia]].
  eexists. split; [apply nth_In_Z, R1 | reflexivity].
Qed.
Lemma randomInsert_ok rng s v r rest : bytes rng -> randomInsert rng s v = Ok r rest ->
  (exists i, (i <= length s)%nat /\ r = firstn i s ++ v ++ skipn i s) /\ suffix rest rng.
Proof.
  unfold randomInsert. intros H E. destruct s as [|x s].
  - inversion E; subst. split; [|apply suffix_refl]. exists 0%nat. split; [cbn; lia|]. cbn. rewrite app_nil_r. reflexivity.
  - destruct (rand_Int rng (Z.of_nat (length (x :: s)) + 1)) as [n q|e| |] eqn:R; try discriminate.
    inversion E; subst. apply rand_Int_ok in R; [|exact H]. destruct R as [R1 [R2 _]].
    split; [|exact R2]. exists (Z.to_nat n). split; [lia|reflexivity].
Qed.

(** ** The loop: what it adds (any set), and how it looks on ASCII sets *)
Lemma pick_ok fuel set ar : forall todo res rng w rest, bytes rng ->
  pick fuel todo set ar res rng = Ok w rest ->
  suffix rest rng /\
  exists picked, length picked = todo /\ Forall (fun b => In b set) picked
    /\ Permutation w (res ++ concat (map string_of_byte picked))
    /\ (ascii set -> ar = false -> NoDup res -> NoDup w).
Proof.
  induction fuel as [|f IH]; intros todo res rng w rest H E; destruct todo as [|todo]; cbn [pick] in E;
    try discriminate;
    try (inversion E; subst; split; [apply suffix_refl|]; exists []; cbn; rewrite app_nil_r; auto; fail).
  destruct (randomElement rng set) as [ch r1|e| |] eqn:RE; try discriminate.
  apply randomElement_ok in RE; [|exact H]. destruct RE as [[b [Hb Hch]] [S1 _]].
  pose proof (suffix_bytes _ _ S1 H) as H1.
  destruct (negb ar && contains res ch) eqn:C.
  - apply IH in E; [|exact H1]. destruct E as [S2 P]. split; [exact (suffix_trans _ _ _ S2 S1)|exact P].
  - destruct (randomInsert r1 res ch) as [res' r2|e| |] eqn:RI; try discriminate.
    apply randomInsert_ok in RI; [|exact H1]. destruct RI as [[i [Hi Hr]] S2].
    apply IH in E; [|exact (suffix_bytes _ _ S2 H1)]. destruct E as [S3 [picked [L [F [P N]]]]].
    split; [exact (suffix_trans _ _ _ S3 (suffix_trans _ _ _ S2 S1))|].
    exists (b :: picked). split; [cbn; lia|]. split; [constructor; assumption|]. split.
    + eapply Permutation_trans; [exact P|]. cbn [map concat]. rewrite app_assoc. apply Permutation_app_tail.
      subst res' ch. apply insert_perm.
    + intros A Ar Nd. apply N; auto. subst res'.
      assert (Hc : ch = [b]).
      { subst ch. apply string_of_byte_ascii. unfold ascii in A. rewrite Forall_forall in A. apply A, Hb. }
      rewrite Hc in *. apply (@Permutation_NoDup _ (b :: res)).
      { apply Permutation_sym. eapply Permutation_trans; [apply insert_perm|].
        apply Permutation_sym. apply (Permutation_cons_append res b). }
      constructor; [|exact Nd].
      intros Hin. apply contains_single in Hin. rewrite Ar, Hin in C. discriminate.
Qed.

(** ** The loop never yields a package error; only the reader's, or (empty set) a panic *)
Lemma randomElement_shape rng s : s <> [] ->
  (exists ch rest, randomElement rng s = Ok ch rest) \/ randomElement rng s = Err ErrReader.
Proof.
  intros Hs. unfold randomElement.
  destruct (rand_Int_shape rng (Z.of_nat (length s))) as [[L _]|[_ [[n [r ->]]| ->]]]; eauto.
  destruct s; [contradiction|]. cbn in L. lia.
Qed.
Lemma randomInsert_shape rng s v :
  (exists ch rest, randomInsert rng s v = Ok ch rest) \/ randomInsert rng s v = Err ErrReader.
Proof.
  unfold randomInsert. destruct s as [|x s]; [eauto|].
  destruct (rand_Int_shape rng (Z.of_nat (length (x :: s)) + 1)) as [[L _]|[_ [[n [r ->]]| ->]]]; eauto. lia.
Qed.
Definition fine (r : result (list Z)) : Prop :=
  (exists w rest, r = Ok w rest) \/ r = Err ErrReader \/ r = OutOfFuel.
Lemma pick_fine fuel set ar : set <> [] -> forall todo res rng, fine (pick fuel todo set ar res rng).
Proof.
  intros Hs. induction fuel as [|f IH]; intros todo res rng; destruct todo as [|todo]; cbn [pick];
    try (left; eauto; fail); [right; right; reflexivity|].
  destruct (randomElement_shape rng set Hs) as [[ch [r1 ->]]| ->]; [|right; left; reflexivity].
  destruct (negb ar && contains res ch); [apply IH|].
  destruct (randomInsert_shape r1 res ch) as [[r' [r2 ->]]| ->]; [apply IH|right; left; reflexivity].
Qed.

(** ** Termination *)
(** With repeats allowed each iteration counts. *)
Lemma pick_repeat_terminates fuel set : forall todo res rng, (todo <= fuel)%nat ->
  pick fuel todo set true res rng <> OutOfFuel.
Proof.
  induction fuel as [|f IH]; intros todo res rng L; destruct todo as [|todo]; cbn [pick]; try discriminate; [lia|].
  destruct (randomElement rng set) as [ch r1|e| |] eqn:E; try discriminate.
  - cbn [negb andb]. destruct (randomInsert_shape r1 res ch) as [[r' [r2 ->]]| ->]; [apply IH; lia|discriminate].
  - exfalso. unfold randomElement in E. destruct (rand_Int_shape rng (Z.of_nat (length set))) as [[_ H]|[_ [[n [q H]]|H]]];
      rewrite H in E; discriminate.
Qed.
(** Without repeats every draw from a set of two or more consumes random bytes. *)
Lemma pick_finite_terminates fuel set ar : (2 <= length set)%nat -> forall todo res rng, bytes rng ->
  (todo + length rng <= fuel)%nat -> pick fuel todo set ar res rng <> OutOfFuel.
Proof.
  intros Hs. induction fuel as [|f IH]; intros todo res rng B L; destruct todo as [|todo]; cbn [pick]; try discriminate; [lia|].
  destruct (randomElement_shape rng set ltac:(destruct set; [cbn in Hs; lia|discriminate])) as [[ch [r1 E]]|E]; rewrite E; [|discriminate].
  apply randomElement_ok in E; [|exact B]. destruct E as [_ [S1 C]]. specialize (C Hs).
  pose proof (suffix_bytes _ _ S1 B) as B1.
  destruct (negb ar && contains res ch).
  - apply IH; [exact B1|lia].
  - destruct (randomInsert_shape r1 res ch) as [[r' [r2 E]]|E]; rewrite E; [|discriminate].
    apply randomInsert_ok in E; [|exact B1]. destruct E as [_ S2].
    apply IH; [exact (suffix_bytes _ _ S2 B1)|]. apply suffix_length in S2. lia.
Qed.

(** ** Generate *)
(** The documented refusals, in order. *)
Definition refusal (g : Generator) (len nd ns : Z) (noUpper ar : bool) : option gerror :=
  if nd + ns >? len then Some ErrExceedsTotalLength
  else if ar then None
  else if len - nd - ns >? Z.of_nat (length (letters g noUpper)) then Some ErrLettersExceedsAvailable
  else if nd >? Z.of_nat (length (digits g)) then Some ErrDigitsExceedsAvailable
  else if ns >? Z.of_nat (length (symbols g)) then Some ErrSymbolsExceedsAvailable
  else None.

Lemma Generate_refusal fuel g rng len nd ns nu ar :
  Generate fuel g rng len nd ns nu ar =
  match refusal g len nd ns nu ar with
  | Some e => Err e
  | None =>
    match pick fuel (Z.to_nat (len - nd - ns)) (letters g nu) ar [] rng with
    | Ok r1 rng1 =>
        match pick fuel (Z.to_nat nd) (digits g) ar r1 rng1 with
        | Ok r2 rng2 => pick fuel (Z.to_nat ns) (symbols g) ar r2 rng2
        | x => x
        end
    | x => x
    end
  end.
Proof.
  unfold Generate, refusal. cbv zeta.
  destruct (Z.ltb_spec (len - nd - ns) 0) as [A|A].
  - destruct (Z.gtb_spec (nd + ns) len); [reflexivity|lia].
  - destruct (Z.gtb_spec (nd + ns) len); [lia|].
    destruct ar; cbn [negb andb]; [reflexivity|].
    destruct (_ >? Z.of_nat (length (letters g nu))); [reflexivity|].
    destruct (_ >? Z.of_nat (length (digits g))); [reflexivity|].
    destruct (_ >? Z.of_nat (length (symbols g))); reflexivity.
Qed.

Lemma concat_ascii l : ascii l -> concat (map string_of_byte l) = l.
Proof.
  induction l as [|x l IH]; intros H; [reflexivity|]. inversion H; subst. cbn [map concat].
  rewrite string_of_byte_ascii by assumption. cbn. f_equal. auto.
Qed.
Lemma ascii_incl s l : ascii s -> Forall (fun b => In b s) l -> ascii l.
Proof.
  unfold ascii. intros A H. rewrite Forall_forall in *. auto.
Qed.

Definition gen_sets (P : list Z -> Prop) (g : Generator) : Prop :=
  P (lowerLetters g) /\ P (upperLetters g) /\ P (digits g) /\ P (symbols g).

Lemma letters_ascii g nu : gen_sets ascii g -> ascii (letters g nu).
Proof.
  intros [A [B _]]. unfold letters. destruct nu; [exact A|]. apply Forall_app. auto.
Qed.

Lemma Generate_ok fuel g rng len nd ns nu ar w rest : bytes rng ->
  Generate fuel g rng len nd ns nu ar = Ok w rest ->
  exists ls ds ss,
    Permutation w (concat (map string_of_byte (ls ++ ds ++ ss)))
    /\ Z.of_nat (length ls) = len - nd - ns /\ Z.of_nat (length ds) = Z.max 0 nd /\ Z.of_nat (length ss) = Z.max 0 ns
    /\ Forall (fun b => In b (letters g nu)) ls /\ Forall (fun b => In b (digits g)) ds
    /\ Forall (fun b => In b (symbols g)) ss
    /\ (gen_sets ascii g -> ar = false -> NoDup w).
Proof.
  intros B. rewrite Generate_refusal. destruct (refusal g len nd ns nu ar) as [e|] eqn:R; [discriminate|].
  assert (0 <= len - nd - ns).
  { unfold refusal in R. destruct (Z.gtb_spec (nd + ns) len); [discriminate|lia]. }
  destruct (pick fuel (Z.to_nat (len - nd - ns)) (letters g nu) ar [] rng) as [r1 g1|e| |] eqn:E1; try discriminate.
  destruct (pick fuel (Z.to_nat nd) (digits g) ar r1 g1) as [r2 g2|e| |] eqn:E2; try discriminate.
  intros E3.
  apply pick_ok in E1; [|exact B]. destruct E1 as [S1 [ls [L1 [F1 [P1 N1]]]]].
  pose proof (suffix_bytes _ _ S1 B) as B1.
  apply pick_ok in E2; [|exact B1]. destruct E2 as [S2 [ds [L2 [F2 [P2 N2]]]]].
  pose proof (suffix_bytes _ _ S2 B1) as B2.
  apply pick_ok in E3; [|exact B2]. destruct E3 as [S3 [ss [L3 [F3 [P3 N3]]]]].
  exists ls, ds, ss. split.
  { rewrite !map_app, !concat_app, app_assoc.
    eapply Permutation_trans; [exact P3|]. apply Permutation_app_tail.
    eapply Permutation_trans; [exact P2|]. apply Permutation_app_tail. exact P1. }
  repeat (split; [try assumption; lia|]).
  intros A Ar. pose proof A as [_ [_ [Ad As]]].
  apply N3; auto. apply N2; auto. apply N1; auto; [apply letters_ascii, A | constructor].
Qed.

Lemma Generate_fine fuel g rng len nd ns nu ar : gen_sets (fun s => s <> []) g ->
  refusal g len nd ns nu ar = None -> fine (Generate fuel g rng len nd ns nu ar).
Proof.
  intros [Hl [Hu [Hd Hs]]] R. rewrite Generate_refusal, R.
  assert (Hls : letters g nu <> []).
  { unfold letters. destruct nu; [exact Hl|]. intros E. apply app_eq_nil in E. destruct E. contradiction. }
  destruct (pick_fine fuel _ ar Hls (Z.to_nat (len - nd - ns)) [] rng) as [[r1 [g1 ->]]|[-> | ->]];
    [|right; left; reflexivity|right; right; reflexivity].
  destruct (pick_fine fuel _ ar Hd (Z.to_nat nd) r1 g1) as [[r2 [g2 ->]]|[-> | ->]];
    [|right; left; reflexivity|right; right; reflexivity].
  apply (pick_fine fuel _ ar Hs).
Qed.

Lemma Generate_terminates fuel g rng len nd ns nu ar : bytes rng ->
  gen_sets (fun s => (2 <= length s)%nat) g ->
  (Z.to_nat (len - nd - ns) + Z.to_nat nd + Z.to_nat ns + length rng <= fuel)%nat ->
  Generate fuel g rng len nd ns nu ar <> OutOfFuel.
Proof.
  intros B [Hl [Hu [Hd Hs]]] L. rewrite Generate_refusal. destruct (refusal g len nd ns nu ar); [discriminate|].
  assert (Hls : (2 <= length (letters g nu))%nat).
  { unfold letters. destruct nu; [exact Hl|]. rewrite app_length. lia. }
  destruct (pick fuel (Z.to_nat (len - nd - ns)) (letters g nu) ar [] rng) as [r1 g1|e| |] eqn:E1; try discriminate.
  2:{ exfalso. revert E1. apply pick_finite_terminates; [exact Hls|exact B|lia]. }
  apply pick_ok in E1; [|exact B]. destruct E1 as [S1 _].
  pose proof (suffix_bytes _ _ S1 B) as B1. pose proof (suffix_length _ _ S1) as L1.
  destruct (pick fuel (Z.to_nat nd) (digits g) ar r1 g1) as [r2 g2|e| |] eqn:E2; try discriminate.
  2:{ exfalso. revert E2. apply pick_finite_terminates; [exact Hd|exact B1|lia]. }
  apply pick_ok in E2; [|exact B1]. destruct E2 as [S2 _].
  pose proof (suffix_bytes _ _ S2 B1) as B2. pose proof (suffix_length _ _ S2) as L2.
  apply pick_finite_terminates; [exact Hs|exact B2|lia].
Qed.
