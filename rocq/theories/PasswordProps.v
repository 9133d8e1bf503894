(** * Properties C08-C12: the password generator.

    Vocabulary: [bytes]/[ascii] (every element < 256 / < 128), [disjoint], [composed], [ways],
    [steps], [count_in], [all_bytes] from PasswordSpec and PasswordProofs; [streams_for] from
    PasswordUniform2 = number of N-byte random streams on which Generate returns the given password.
    Fuel: [OutOfFuel] is "still looping"; a theorem for every fuel speaks about every point of the
    execution. *)
From Coq Require Import String ZArith List ListDec Bool Lia Permutation Factorial Arith.
From Verif Require Import PasswordModel PasswordProofs PasswordSpec PasswordCount PasswordUniform PasswordUniform2.
Import ListNotations.
Open Scope Z_scope.

(** ** Helpers *)
Lemma or_default_nonempty s d : d <> [] -> or_default s d <> [].
Proof. destruct s; [auto|discriminate]. Qed.
Lemma New_nonempty i : gen_sets (fun s => s <> []) (NewGenerator i).
Proof.
  unfold gen_sets, NewGenerator. cbn [lowerLetters upperLetters digits symbols].
  repeat split; apply or_default_nonempty; discriminate.
Qed.
Lemma ascii_of_forallb l : forallb (fun b => (0 <=? b) && (b <? 128)) l = true -> ascii l.
Proof.
  intros H. apply Forall_forall. intros x Hx. rewrite forallb_forall in H. specialize (H x Hx).
  apply andb_true_iff in H. destruct H as [H1 H2]. apply Z.leb_le in H1. apply Z.ltb_lt in H2. lia.
Qed.
Fixpoint nodup_check (l : list Z) : bool :=
  match l with [] => true | x :: l' => negb (memb x l') && nodup_check l' end.
Lemma nodup_check_ok l : nodup_check l = true -> NoDup l.
Proof.
  induction l as [|x l IH]; intros H; constructor; cbn in H; apply andb_true_iff in H; destruct H as [H1 H2].
  - intros Hx. apply memb_true in Hx. rewrite Hx in H1. discriminate.
  - auto.
Qed.
Lemma disjoint_check a b : forallb (fun x => negb (memb x b)) a = true -> disjoint a b.
Proof.
  intros H x Ha Hb. rewrite forallb_forall in H. specialize (H x Ha). apply memb_true in Hb. rewrite Hb in H. discriminate.
Qed.
Definition default_generator : Generator := NewGenerator None.
Lemma default_ascii : gen_sets ascii default_generator.
Proof. repeat split; apply ascii_of_forallb; reflexivity. Qed.

(** ** C08 *)
Theorem C08_composition fuel g rng len nd ns nu ar w rest :
  bytes rng -> gen_sets ascii g -> 0 <= nd -> 0 <= ns ->
  Generate fuel g rng len nd ns nu ar = Ok w rest ->
  Z.of_nat (length w) = len /\
  exists ls ds ss, Permutation w (ls ++ ds ++ ss)
    /\ Z.of_nat (length ls) = len - nd - ns /\ Z.of_nat (length ds) = nd /\ Z.of_nat (length ss) = ns
    /\ (forall b, In b ls -> In b (lowerLetters g) \/ (nu = false /\ In b (upperLetters g)))
    /\ (forall b, In b ds -> In b (digits g)) /\ (forall b, In b ss -> In b (symbols g)).
Proof.
  intros B A Hd Hs E. destruct (Generate_ok _ _ _ _ _ _ _ _ _ _ B E) as [ls [ds [ss [P [L1 [L2 [L3 [I1 [I2 [I3 _]]]]]]]]]].
  assert (Al : ascii (ls ++ ds ++ ss)).
  { destruct A as [A1 [A2 [A3 A4]]]. apply Forall_app. split; [|apply Forall_app; split].
    - eapply ascii_incl; [|exact I1]. apply letters_ascii. repeat split; assumption.
    - eapply ascii_incl; [exact A3|exact I2].
    - eapply ascii_incl; [exact A4|exact I3]. }
  rewrite concat_ascii in P by exact Al.
  rewrite Z.max_r in L2 by lia. rewrite Z.max_r in L3 by lia.
  split.
  - rewrite (Permutation_length P), !app_length. lia.
  - exists ls, ds, ss. rewrite Forall_forall in I1, I2, I3. repeat split; auto.
    intros b Hb. specialize (I1 b Hb). unfold letters in I1. destruct nu; [auto|].
    apply in_app_or in I1. tauto.
Qed.
Print Assumptions C08_composition.

Lemma count_in_perm X a b : Permutation a b -> count_in X a = count_in X b.
Proof.
  intros P. unfold count_in. induction P; cbn [filter].
  - reflexivity.
  - destruct (memb x X); cbn [length]; lia.
  - destruct (memb x X), (memb y X); reflexivity.
  - congruence.
Qed.
Lemma count_in_app X a b : count_in X (a ++ b) = (count_in X a + count_in X b)%nat.
Proof. unfold count_in. rewrite filter_app, app_length. reflexivity. Qed.
Lemma count_in_all X a : (forall x, In x a -> In x X) -> count_in X a = length a.
Proof.
  intros H. unfold count_in. rewrite filter_const_true; [reflexivity|]. intros x Hx. apply memb_true, H, Hx.
Qed.
Lemma count_in_none X a : (forall x, In x a -> In x X -> False) -> count_in X a = 0%nat.
Proof.
  intros H. unfold count_in. rewrite filter_const_false; [reflexivity|]. intros x Hx.
  destruct (memb x X) eqn:E; [|reflexivity]. apply memb_true in E. destruct (H x Hx E).
Qed.

(** With the default sets the classes can be recognised in the result: exactly nd of its characters
    are digits 0-9, ns are among the 32 symbols, the others letters, none upper-case when noUpper. *)
Theorem C08_default_classes fuel rng len nd ns nu ar w rest :
  bytes rng -> 0 <= nd -> 0 <= ns ->
  Generate fuel default_generator rng len nd ns nu ar = Ok w rest ->
  Z.of_nat (length w) = len
  /\ Z.of_nat (count_in Digits w) = nd /\ Z.of_nat (count_in Symbols w) = ns
  /\ Z.of_nat (count_in (LowerLetters ++ UpperLetters) w) = len - nd - ns
  /\ (nu = true -> count_in UpperLetters w = 0%nat).
Proof.
  intros B Hd Hs E. destruct (C08_composition _ _ _ _ _ _ _ _ _ _ B default_ascii Hd Hs E)
    as [L [ls [ds [ss [P [L1 [L2 [L3 [I1 [I2 I3]]]]]]]]]].
  change (digits default_generator) with Digits in *. change (symbols default_generator) with Symbols in *.
  change (lowerLetters default_generator) with LowerLetters in *. change (upperLetters default_generator) with UpperLetters in *.
  assert (D1 : disjoint Digits Symbols) by (apply disjoint_check; reflexivity).
  assert (D2 : disjoint LowerLetters Symbols) by (apply disjoint_check; reflexivity).
  assert (D3 : disjoint UpperLetters Symbols) by (apply disjoint_check; reflexivity).
  assert (D4 : disjoint LowerLetters Digits) by (apply disjoint_check; reflexivity).
  assert (D5 : disjoint UpperLetters Digits) by (apply disjoint_check; reflexivity).
  assert (D6 : disjoint UpperLetters LowerLetters) by (apply disjoint_check; reflexivity).
  split; [exact L|].
  rewrite !(count_in_perm _ _ _ P), !count_in_app. split; [|split; [|split]].
  - rewrite (count_in_none Digits ls), (count_in_all Digits ds), (count_in_none Digits ss); auto.
    + lia.
    + intros x Hx Hy. exact (D1 x Hy (I3 x Hx)).
    + intros x Hx Hy. destruct (I1 x Hx) as [H|[_ H]]; [exact (D4 x H Hy)|exact (D5 x H Hy)].
  - rewrite (count_in_none Symbols ls), (count_in_none Symbols ds), (count_in_all Symbols ss); auto.
    + intros x Hx Hy. exact (D1 x (I2 x Hx) Hy).
    + intros x Hx Hy. destruct (I1 x Hx) as [H|[_ H]]; [exact (D2 x H Hy)|exact (D3 x H Hy)].
  - rewrite (count_in_all _ ls), (count_in_none _ ds), (count_in_none _ ss).
    + lia.
    + intros x Hx Hy. apply in_app_or in Hy. destruct Hy as [H|H]; [exact (D2 x H (I3 x Hx))|exact (D3 x H (I3 x Hx))].
    + intros x Hx Hy. apply in_app_or in Hy. destruct Hy as [H|H]; [exact (D4 x H (I2 x Hx))|exact (D5 x H (I2 x Hx))].
    + intros x Hx. apply in_or_app. destruct (I1 x Hx) as [H|[_ H]]; auto.
  - intros ->. rewrite (count_in_none _ ls), (count_in_none _ ds), (count_in_none _ ss).
    + reflexivity.
    + intros x Hx Hy. exact (D3 x Hy (I3 x Hx)).
    + intros x Hx Hy. exact (D5 x Hy (I2 x Hx)).
    + intros x Hx Hy. destruct (I1 x Hx) as [H|[H _]]; [exact (D6 x Hy H)|discriminate].
Qed.
Print Assumptions C08_default_classes.
(** What those sets are: all letters, all digits, and the ASCII punctuation but for ' and ;, each character once. *)
Theorem C08_default_characters c :
  (In c LowerLetters <-> 97 <= c <= 122) /\ (In c UpperLetters <-> 65 <= c <= 90) /\ (In c Digits <-> 48 <= c <= 57)
  /\ (In c Symbols <-> 33 <= c <= 126 /\ ~ 97 <= c <= 122 /\ ~ 65 <= c <= 90 /\ ~ 48 <= c <= 57 /\ c <> 39 /\ c <> 59)
  /\ NoDup (LowerLetters ++ UpperLetters ++ Digits ++ Symbols).
Proof.
  split; [|split; [|split; [|split]]].
  1-4: split; intros H.
  1,3,5,7: vm_compute in H; repeat (destruct H as [<-|H]; [lia|]); contradiction.
  - assert (N : (Z.to_nat (c - 97) < 26)%nat) by lia. replace c with (nth (Z.to_nat (c - 97)) LowerLetters 0); [apply nth_In; exact N|].
    replace c with (97 + Z.of_nat (Z.to_nat (c - 97))) at 2 by lia. revert N. generalize (Z.to_nat (c - 97)). intros n N.
    do 26 (destruct n as [|n]; [reflexivity|]). lia.
  - assert (N : (Z.to_nat (c - 65) < 26)%nat) by lia. replace c with (nth (Z.to_nat (c - 65)) UpperLetters 0); [apply nth_In; exact N|].
    replace c with (65 + Z.of_nat (Z.to_nat (c - 65))) at 2 by lia. revert N. generalize (Z.to_nat (c - 65)). intros n N.
    do 26 (destruct n as [|n]; [reflexivity|]). lia.
  - assert (N : (Z.to_nat (c - 48) < 10)%nat) by lia. replace c with (nth (Z.to_nat (c - 48)) Digits 0); [apply nth_In; exact N|].
    replace c with (48 + Z.of_nat (Z.to_nat (c - 48))) at 2 by lia. revert N. generalize (Z.to_nat (c - 48)). intros n N.
    do 10 (destruct n as [|n]; [reflexivity|]). lia.
  - assert (X : existsb (Z.eqb c) Symbols = true).
    { assert (N : (Z.to_nat (c - 33) < 94)%nat) by lia. replace c with (33 + Z.of_nat (Z.to_nat (c - 33))) in H |- * by lia. revert N H. generalize (Z.to_nat (c - 33)). intros n N H.
      do 94 (destruct n as [|n]; [first [reflexivity | exfalso; cbn in H; lia]|]). lia. }
    apply existsb_exists in X. destruct X as [x [I E]]. apply Z.eqb_eq in E. subst. exact I.
  - apply (NoDup_count_occ' Z.eq_dec). intros x I.
    assert (X : forallb (fun x => Nat.eqb (count_occ Z.eq_dec (LowerLetters ++ UpperLetters ++ Digits ++ Symbols) x) 1) (LowerLetters ++ UpperLetters ++ Digits ++ Symbols) = true) by (vm_compute; reflexivity).
    rewrite forallb_forall in X. apply Nat.eqb_eq. apply X. exact I.
Qed.
Print Assumptions C08_default_characters.
(** A generator made with sets of one's own uses them; a set left empty, or no input at all, means the default. *)
Theorem C08_configured lo up di sy :
  let g := NewGenerator (Some {| lowerLetters := lo; upperLetters := up; digits := di; symbols := sy |}) in
  (lo <> [] -> lowerLetters g = lo) /\ (up <> [] -> upperLetters g = up) /\ (di <> [] -> digits g = di) /\ (sy <> [] -> symbols g = sy)
  /\ (lo = [] -> lowerLetters g = LowerLetters) /\ (up = [] -> upperLetters g = UpperLetters) /\ (di = [] -> digits g = Digits) /\ (sy = [] -> symbols g = Symbols)
  /\ NewGenerator None = {| lowerLetters := LowerLetters; upperLetters := UpperLetters; digits := Digits; symbols := Symbols |}.
Proof. destruct lo, up, di, sy; cbn; repeat split; congruence. Qed.
Print Assumptions C08_configured.

(** Non-vacuity: a password with one digit and one symbol from concrete bytes. *)
Example C08_example : exists w rest, Generate 10 default_generator [7; 12; 1; 30; 2; 5; 3; 9; 9] 4 1 1 false false = Ok w rest
  /\ length w = 4%nat /\ count_in Digits w = 1%nat.
Proof. vm_compute. eexists. eexists. split; [reflexivity|]. split; reflexivity. Qed.

(** ** C09 *)
Theorem C09_no_repeats fuel g rng len nd ns nu w rest :
  bytes rng -> gen_sets ascii g ->
  Generate fuel g rng len nd ns nu false = Ok w rest -> NoDup w.
Proof.
  intros B A E. destruct (Generate_ok _ _ _ _ _ _ _ _ _ _ B E) as [ls [ds [ss [_ [_ [_ [_ [_ [_ [_ H]]]]]]]]]].
  apply H; [exact A|reflexivity].
Qed.
Print Assumptions C09_no_repeats.
Example C09_example : exists w rest, Generate 30 default_generator [0;0;0;1;0;2;1;3;0;4;1] 4 0 0 true false = Ok w rest /\ length w = 4%nat.
Proof. vm_compute. eexists. eexists. split; reflexivity. Qed.

(** ** C10 *)
Theorem C10_refused_exactly fuel i rng len nd ns nu ar :
  let g := NewGenerator i in
  let r := Generate fuel g rng len nd ns nu ar in
  let nl := Z.of_nat (length (letters g nu)) in
  let ndig := Z.of_nat (length (digits g)) in
  let nsym := Z.of_nat (length (symbols g)) in
  (r = Err ErrExceedsTotalLength <-> nd + ns > len)
  /\ (r = Err ErrLettersExceedsAvailable <-> nd + ns <= len /\ ar = false /\ len - nd - ns > nl)
  /\ (r = Err ErrDigitsExceedsAvailable <-> nd + ns <= len /\ ar = false /\ len - nd - ns <= nl /\ nd > ndig)
  /\ (r = Err ErrSymbolsExceedsAvailable <->
        nd + ns <= len /\ ar = false /\ len - nd - ns <= nl /\ nd <= ndig /\ ns > nsym)
  /\ r <> Panic.
Proof.
  cbv zeta. pose proof (New_nonempty i) as NE. set (g := NewGenerator i) in *.
  assert (F : refusal g len nd ns nu ar = None ->
    (exists w rest, Generate fuel g rng len nd ns nu ar = Ok w rest) \/
    Generate fuel g rng len nd ns nu ar = Err ErrReader \/ Generate fuel g rng len nd ns nu ar = OutOfFuel)
    by (apply Generate_fine; exact NE).
  pose proof (Generate_refusal fuel g rng len nd ns nu ar) as R.
  destruct (refusal g len nd ns nu ar) as [e|] eqn:Rf; unfold refusal in Rf.
  - rewrite R. clear F R.
    destruct (Z.gtb_spec (nd + ns) len).
    { inversion Rf; subst. repeat split; try discriminate; try lia. }
    destruct ar; [discriminate|].
    destruct (Z.gtb_spec (len - nd - ns) (Z.of_nat (length (letters g nu)))).
    { inversion Rf; subst. repeat split; try discriminate; try lia. }
    destruct (Z.gtb_spec nd (Z.of_nat (length (digits g)))).
    { inversion Rf; subst. repeat split; try discriminate; try lia. }
    destruct (Z.gtb_spec ns (Z.of_nat (length (symbols g)))).
    { inversion Rf; subst. repeat split; try discriminate; try lia. }
    discriminate.
  - specialize (F eq_refl). clear R.
    destruct (Z.gtb_spec (nd + ns) len) as [|G1]; [discriminate|].
    assert (G : ar = true \/ ar = false /\ len - nd - ns <= Z.of_nat (length (letters g nu)) /\ nd <= Z.of_nat (length (digits g)) /\ ns <= Z.of_nat (length (symbols g))).
    { destruct ar; [auto|]. right.
      destruct (Z.gtb_spec (len - nd - ns) (Z.of_nat (length (letters g nu)))); [discriminate|].
      destruct (Z.gtb_spec nd (Z.of_nat (length (digits g)))); [discriminate|].
      destruct (Z.gtb_spec ns (Z.of_nat (length (symbols g)))); [discriminate|]. lia. }
    destruct F as [[w [rest ->]]|[-> | ->]]; repeat split; try discriminate; try lia;
      intros [? ?]; destruct G as [G|G]; try lia; intuition (try congruence; try lia).
Qed.
Print Assumptions C10_refused_exactly.

(** Otherwise the only error is the reader's, and a finite stream is enough for the loops to end
    (character sets of at least two bytes). *)
Theorem C10_only_reader_errors i rng len nd ns nu ar :
  let g := NewGenerator i in
  bytes rng -> gen_sets (fun s => (2 <= length s)%nat) g ->
  nd + ns <= len ->
  (ar = false -> len - nd - ns <= Z.of_nat (length (letters g nu)) /\
      nd <= Z.of_nat (length (digits g)) /\ ns <= Z.of_nat (length (symbols g))) ->
  exists fuel0, forall fuel, (fuel0 <= fuel)%nat ->
    (exists w rest, Generate fuel g rng len nd ns nu ar = Ok w rest) \/
    Generate fuel g rng len nd ns nu ar = Err ErrReader.
Proof.
  cbv zeta. intros B G2 H1 H2.
  exists (Z.to_nat (len - nd - ns) + Z.to_nat nd + Z.to_nat ns + length rng)%nat. intros fuel Hf.
  pose proof (Generate_terminates fuel (NewGenerator i) rng len nd ns nu ar B G2 Hf) as T.
  destruct (Generate_fine fuel (NewGenerator i) rng len nd ns nu ar (New_nonempty i)) as [F|[F|F]]; auto; [|contradiction].
  unfold refusal. destruct (Z.gtb_spec (nd + ns) len); [lia|]. destruct ar; [reflexivity|].
  destruct (H2 eq_refl) as [A1 [A2 A3]].
  destruct (Z.gtb_spec (len - nd - ns) (Z.of_nat (length (letters (NewGenerator i) nu)))); [lia|].
  destruct (Z.gtb_spec nd (Z.of_nat (length (digits (NewGenerator i))))); [lia|].
  destruct (Z.gtb_spec ns (Z.of_nat (length (symbols (NewGenerator i))))); [lia|]. reflexivity.
Qed.
Print Assumptions C10_only_reader_errors.
(** MustGenerate returns exactly what Generate returns and panics exactly where it errs. *)
Theorem C10_MustGenerate fuel i rng len nd ns nu ar :
  let g := NewGenerator i in
  let m := MustGenerate fuel g rng len nd ns nu ar in
  let r := Generate fuel g rng len nd ns nu ar in
  (forall w rest, m = Ok w rest <-> r = Ok w rest)
  /\ (m = Panic <-> exists e, r = Err e)
  /\ (forall e, m <> Err e).
Proof.
  cbv zeta. pose proof (C10_refused_exactly fuel i rng len nd ns nu ar) as C. cbv zeta in C.
  destruct C as [_ [_ [_ [_ C]]]]. unfold MustGenerate.
  destruct (Generate fuel (NewGenerator i) rng len nd ns nu ar) as [w0 r0|e| |]; try contradiction;
    (split; [|split]); try (split; intros; congruence); try discriminate.
  - split; [discriminate|]. intros [e E]. discriminate.
  - split; [intros _; exists e; reflexivity|reflexivity].
  - split; [discriminate|]. intros [e E]. discriminate.
Qed.
Print Assumptions C10_MustGenerate.
(** The same for the generator made by NewMockGenerator: its result, or its error and a panic. *)
Theorem C10_mock res : forall err,
  match err with
  | None => mock_Generate res err = Ok res [] /\ mock_MustGenerate res err = Ok res []
  | Some e => mock_Generate res err = Err e /\ mock_MustGenerate res err = Panic
  end.
Proof. intros [e|]; split; reflexivity. Qed.
Print Assumptions C10_mock.
Example C10_example : Generate 9 default_generator [1;2;3] 5 3 3 false true = Err ErrExceedsTotalLength
  /\ Generate 9 default_generator [1;2;3] 30 0 0 true false = Err ErrLettersExceedsAvailable
  /\ Generate 9 default_generator [1;2;3] 11 11 0 true false = Err ErrDigitsExceedsAvailable
  /\ Generate 9 default_generator [1;2;3] 40 0 40 true false = Err ErrSymbolsExceedsAvailable
  /\ Generate 9 default_generator [1] 3 0 0 true false = Err ErrReader.
Proof. repeat split. Qed.

(** ** C11 *)
(** A password of the requested composition is built by exactly c! d! s! choice sequences, whichever
    password it is. *)
Theorem C11_same_number_of_ways L D S_ c d s w :
  NoDup L -> NoDup D -> NoDup S_ -> disjoint L D -> disjoint L S_ -> disjoint D S_ ->
  composed L D S_ c d s w ->
  ways (steps L D S_ c d s) w = (fact c * fact d * fact s)%nat
  /\ (NoDup w -> ways_norepeat (steps L D S_ c d s) w = (fact c * fact d * fact s)%nat).
Proof.
  intros NL ND NS LD LS DS C. split.
  - apply ways_count; assumption.
  - intros Nd. rewrite ways_norepeat_nodup by exact Nd. apply ways_count; assumption.
Qed.
Print Assumptions C11_same_number_of_ways.

(** The bounded draw: each value below max is produced by the same number of N-byte streams. *)
Theorem C11_draw_uniform (max : Z) (N : nat) (a b : Z) : 0 <= a < max -> 0 <= b < max ->
  length (filter (fun s => match rand_Int s max with Ok n _ => n =? a | _ => false end) (all_bytes N))
  = length (filter (fun s => match rand_Int s max with Ok n _ => n =? b | _ => false end) (all_bytes N)).
Proof.
  intros Ha Hb. destruct (rand_Int_sum (Z.to_nat max) ltac:(lia)) as [W HW].
  assert (X : forall v, 0 <= v < max ->
    length (filter (fun s => match rand_Int s max with Ok n _ => n =? v | _ => false end) (all_bytes N))
    = wsum W N (fun r => length (all_bytes r))).
  { intros v Hv. rewrite length_filter_sum.
    transitivity (ssum (all_bytes N) (fun s => ev (rand_Int s (Z.of_nat (Z.to_nat max))) (fun n _ => if n =? v then 1%nat else 0%nat))).
    - apply ssum_ext. intros s _. rewrite Z2Nat.id by lia. destruct (rand_Int s max); reflexivity.
    - rewrite HW. apply wsum_ext. intros r _.
      rewrite (bsum_ext _ _ (fun i => if (i =? Z.to_nat v)%nat then length (all_bytes r) else 0%nat)).
      + apply (bsum_pick _ (fun _ => length (all_bytes r))). lia.
      + intros i _. destruct (Z.eqb_spec (Z.of_nat i) v), (Nat.eqb_spec i (Z.to_nat v)); try lia.
        * unfold ssum. generalize (all_bytes r). intros l. induction l as [|x l IHl]; [reflexivity|].
          cbn [map length]. change (sum (1%nat :: ?q)) with (1 + sum q)%nat. rewrite IHl. lia.
        * apply ssum_zero. }
  rewrite !X by assumption. reflexivity.
Qed.
Print Assumptions C11_draw_uniform.

(** A generator whose sets are ASCII, duplicate-free, non-empty and mutually disjoint. *)
Definition proper_sets (g : Generator) (nu : bool) : Prop :=
  (ascii (letters g nu) /\ ascii (digits g) /\ ascii (symbols g))
  /\ (NoDup (letters g nu) /\ NoDup (digits g) /\ NoDup (symbols g))
  /\ (letters g nu <> [] /\ digits g <> [] /\ symbols g <> [])
  /\ disjoint (letters g nu) (digits g) /\ disjoint (letters g nu) (symbols g) /\ disjoint (digits g) (symbols g).
(** A password Generate may return for the request. *)
Definition valid_password (g : Generator) (len nd ns : Z) (nu ar : bool) (w : list Z) : Prop :=
  composed (letters g nu) (digits g) (symbols g) (Z.to_nat (len - nd - ns)) (Z.to_nat nd) (Z.to_nat ns) w
  /\ (ar = false -> NoDup w).

(** End to end: for every stream length N, every two valid passwords are returned on equally many
    N-byte streams (the rejected draws and the no-repeat retries included). *)
Theorem C11_generate_uniform fuel g N len nd ns nu ar w1 w2 :
  proper_sets g nu -> valid_password g len nd ns nu ar w1 -> valid_password g len nd ns nu ar w2 ->
  streams_for fuel g N len nd ns nu ar w1 = streams_for fuel g N len nd ns nu ar w2.
Proof.
  intros [[A1 [A2 A3]] [[N1 [N2 N3]] [[E1 [E2 E3]] [D1 [D2 D3]]]]] [C1 R1] [C2 R2].
  destruct (streams_for_ways fuel g N len nd ns nu ar A1 A2 A3 N1 N2 N3 E1 E2 E3 D1 D2 D3) as [K HK].
  rewrite !HK. f_equal. rewrite !ways_mode_spec. destruct ar.
  - rewrite !ways_count; auto.
  - rewrite !ways_norepeat_nodup by auto. rewrite !ways_count; auto.
Qed.
Print Assumptions C11_generate_uniform.

(** No valid password is impossible: some stream makes Generate return it. *)
Lemma pick_hit ar set : ascii set -> forall todo res w, In w (picks todo ar set res) ->
  exists bs, bytes bs /\ forall fuel rest, (todo <= fuel)%nat -> pick fuel todo set ar res (bs ++ rest) = Ok w rest.
Proof.
  intros As. induction todo as [|t IH]; intros res w H.
  - destruct H as [<-|[]]. exists []. split; [constructor|]. intros [|f] rest _; reflexivity.
  - cbn [picks] in H. apply in_flat_map in H. destruct H as [r [H1 H2]].
    apply IH in H2. destruct H2 as [bs2 [B2 P2]]. unfold step1 in H1. apply in_flat_map in H1. destruct H1 as [ch [Hc H1]].
    destruct (negb ar && memb ch res) eqn:Rep; [destruct H1|]. apply in_map_iff in H1. destruct H1 as [i [<- Hi]].
    apply in_seq in Hi. apply (In_nth _ _ 0) in Hc. destruct Hc as [p [Hp Ech]].
    destruct (rand_Int_hit (length set) p Hp) as [b1 [B1 R1]].
    assert (Ins : exists b3, bytes b3 /\ forall rest, randomInsert (b3 ++ rest) res [ch] = Ok (insert_at i ch res) rest).
    { destruct res as [|x res'].
      - exists []. split; [constructor|]. intros rest. assert (i = 0)%nat by (cbn in Hi; lia). subst i. reflexivity.
      - destruct (rand_Int_hit (S (length (x :: res'))) i) as [b3 [B3 R3]]; [lia|].
        exists b3. split; [exact B3|]. intros rest. unfold randomInsert.
        replace (Z.of_nat (length (x :: res')) + 1) with (Z.of_nat (S (length (x :: res')))) by lia.
        rewrite R3, Nat2Z.id. reflexivity. }
    destruct Ins as [b3 [B3 R3]].
    exists (b1 ++ b3 ++ bs2). split; [apply Forall_app; split; [exact B1|apply Forall_app; split; assumption]|].
    intros fuel rest Hf. destruct fuel as [|f]; [lia|]. cbn [pick]. unfold randomElement.
    rewrite <- !app_assoc, R1, Nat2Z.id, Ech.
    assert (0 <= ch < 128) by (unfold ascii in As; rewrite Forall_forall in As; apply As; rewrite <- Ech; apply nth_In, Hp).
    rewrite string_of_byte_ascii by assumption. rewrite contains_memb, Rep, R3. apply P2. lia.
Qed.
Lemma NoDup_filter_len (w X : list Z) : NoDup w -> (count_in X w <= length X)%nat.
Proof.
  intros Nd. unfold count_in. apply NoDup_incl_length; [apply NoDup_filter, Nd|].
  intros x Hx. apply filter_In in Hx. apply memb_true, Hx.
Qed.
Theorem C11_every_password_reachable g len nd ns nu ar w :
  proper_sets g nu -> 0 <= nd -> 0 <= ns -> nd + ns <= len -> valid_password g len nd ns nu ar w ->
  exists stream fuel, bytes stream /\ Generate fuel g stream len nd ns nu ar = Ok w [].
Proof.
  intros [[A1 [A2 A3]] [[N1 [N2 N3]] [[E1 [E2 E3]] [D1 [D2 D3]]]]] Hd Hs Hl [C R].
  set (L := letters g nu) in *. set (D := digits g) in *. set (S_ := symbols g) in *.
  set (c := Z.to_nat (len - nd - ns)) in *. set (d := Z.to_nat nd) in *. set (s := Z.to_nat ns) in *.
  assert (W : (0 < ways_mode ar (steps L D S_ c d s) w)%nat).
  { pose proof (lt_O_fact c). pose proof (lt_O_fact d). pose proof (lt_O_fact s).
    rewrite ways_mode_spec. destruct ar.
    - rewrite ways_count; auto; nia.
    - rewrite ways_norepeat_nodup by auto. rewrite ways_count; auto; nia. }
  unfold ways_mode in W. apply ssum_pos_in in W. destruct W as [u [Hu E]].
  destruct (list_eqb u w) eqn:Eu; [|lia]. apply list_eqb_true in Eu. subst u.
  unfold steps in Hu. rewrite outcomes_repeat, outcomes_repeat in Hu.
  rewrite <- (app_nil_r (repeat L c)), outcomes_repeat in Hu.
  apply in_flat_map in Hu. destruct Hu as [w2 [Hu H3]].
  apply in_flat_map in Hu. destruct Hu as [w1 [Hu H2]].
  apply in_flat_map in Hu. destruct Hu as [w0 [Hu H1]].
  assert (w0 = []).
  { unfold outcomes in Hu. apply in_map_iff in Hu. destruct Hu as [v [<- Hv]]. apply filter_In in Hv.
    destruct Hv as [[<-|[]] _]. reflexivity. }
  subst w0.
  destruct (pick_hit ar L A1 c [] w1 H1) as [b1 [B1 P1]].
  destruct (pick_hit ar D A2 d w1 w2 H2) as [b2 [B2 P2]].
  destruct (pick_hit ar S_ A3 s w2 w H3) as [b3 [B3 P3]].
  exists (b1 ++ b2 ++ b3), (c + d + s)%nat. split; [repeat (apply Forall_app; split); assumption|].
  rewrite Generate_refusal.
  assert (Rf : refusal g len nd ns nu ar = None).
  { unfold refusal. destruct (Z.gtb_spec (nd + ns) len); [lia|]. destruct ar; [reflexivity|].
    destruct C as [_ [C1 [C2 C3]]]. specialize (R eq_refl).
    pose proof (NoDup_filter_len w L R). pose proof (NoDup_filter_len w D R). pose proof (NoDup_filter_len w S_ R).
    fold L D S_.
    destruct (Z.gtb_spec (len - nd - ns) (Z.of_nat (length L))); [lia|].
    destruct (Z.gtb_spec nd (Z.of_nat (length D))); [lia|].
    destruct (Z.gtb_spec ns (Z.of_nat (length S_))); [lia|]. reflexivity. }
  rewrite Rf. fold L D S_ c d s. rewrite P1 by lia. rewrite P2 by lia.
  rewrite <- (app_nil_r b3). rewrite P3 by lia. reflexivity.
Qed.
Print Assumptions C11_every_password_reachable.

(** The default sets meet the hypotheses. *)
Theorem C11_default_proper nu : proper_sets default_generator nu.
Proof.
  unfold proper_sets. destruct nu; (repeat split); try (apply ascii_of_forallb; reflexivity);
    try (apply nodup_check_ok; reflexivity); try (apply disjoint_check; reflexivity); discriminate.
Qed.
Example C11_example : valid_password default_generator 3 1 1 true false (bytes_of_string "a7#"%string).
Proof. split; [repeat split|intros _; apply nodup_check_ok; reflexivity]. Qed.

(** ** C12 *)
(** The exact length law: negative counts are ignored when choosing, but lengthen the letters. *)
Theorem C12_length_law fuel g rng len nd ns nu ar w rest :
  bytes rng -> gen_sets ascii g ->
  Generate fuel g rng len nd ns nu ar = Ok w rest ->
  Z.of_nat (length w) = len + Z.max 0 (- nd) + Z.max 0 (- ns).
Proof.
  intros B A E. destruct (Generate_ok _ _ _ _ _ _ _ _ _ _ B E) as [ls [ds [ss [P [L1 [L2 [L3 [I1 [I2 [I3 _]]]]]]]]]].
  assert (Al : ascii (ls ++ ds ++ ss)).
  { destruct A as [A1 [A2 [A3 A4]]]. apply Forall_app. split; [|apply Forall_app; split].
    - eapply ascii_incl; [|exact I1]. apply letters_ascii. repeat split; assumption.
    - eapply ascii_incl; [exact A3|exact I2].
    - eapply ascii_incl; [exact A4|exact I3]. }
  rewrite concat_ascii in P by exact Al. rewrite (Permutation_length P), !app_length. lia.
Qed.
Print Assumptions C12_length_law.
Theorem C12_negative_count_lengthens fuel g rng len nd ns nu ar w rest :
  bytes rng -> gen_sets ascii g -> nd < 0 ->
  Generate fuel g rng len nd ns nu ar = Ok w rest -> Z.of_nat (length w) > len.
Proof. intros B A H E. rewrite (C12_length_law _ _ _ _ _ _ _ _ _ _ B A E). lia. Qed.
Example C12_negative_example : exists w rest,
  Generate 9 default_generator [1;2;3;1;4;2] 2 (-1) 0 true true = Ok w rest /\ length w = 3%nat.
Proof. vm_compute. eexists. eexists. split; reflexivity. Qed.

Lemma concat_high_length l : Forall (fun b => 128 <= b < 256) l -> length (concat (map string_of_byte l)) = (2 * length l)%nat.
Proof.
  induction l as [|x l IH]; intros H; [reflexivity|]. inversion H; subst. cbn [map concat]. rewrite app_length, IH by assumption.
  unfold string_of_byte. destruct (Z.ltb_spec x 128); [lia|]. cbn. lia.
Qed.
(** Sets of bytes >= 0x80 (e.g. the bytes of any non-ASCII UTF-8 letters) give twice the length. *)
Theorem C12_non_ascii_doubles fuel g rng len nd ns nu ar w rest :
  bytes rng -> gen_sets (Forall (fun b => 128 <= b < 256)) g -> 0 <= nd -> 0 <= ns ->
  Generate fuel g rng len nd ns nu ar = Ok w rest -> Z.of_nat (length w) = 2 * len.
Proof.
  intros B A Hd Hs E. destruct (Generate_ok _ _ _ _ _ _ _ _ _ _ B E) as [ls [ds [ss [P [L1 [L2 [L3 [I1 [I2 [I3 _]]]]]]]]]].
  rewrite (Permutation_length P), concat_high_length, !app_length; [lia|].
  destruct A as [A1 [A2 [A3 A4]]]. rewrite Forall_forall in *.
  intros x Hx. apply in_app_or in Hx. destruct Hx as [Hx|Hx].
  - apply I1 in Hx. unfold letters in Hx. destruct nu; [auto|]. apply in_app_or in Hx. destruct Hx; auto.
  - apply in_app_or in Hx. destruct Hx; auto.
Qed.
Print Assumptions C12_non_ascii_doubles.
Example C12_non_ascii_example : exists w rest,
  Generate 9 {| lowerLetters := [195; 169]; upperLetters := [195; 137]; digits := [195; 160]; symbols := [194; 163] |}
    [1;0;1;1;0] 2 0 0 true true = Ok w rest /\ w = [194; 195; 131; 169].
Proof. vm_compute. eexists. eexists. split; reflexivity. Qed.

Lemma NoDup_app_left (a b : list Z) : NoDup (a ++ b) -> NoDup a.
Proof.
  induction a as [|x a IH]; intros H; [constructor|]. inversion H; subst. constructor; [|auto].
  intros Hx. apply H2. apply in_or_app. auto.
Qed.
(** A no-repeat request for more letters than the set has distinct characters is accepted when the
    set's byte count is large enough - and then no random stream, however long, yields a password. *)
Theorem C12_duplicates_never_return fuel g rng len nd ns nu w rest distinct :
  bytes rng -> gen_sets ascii g ->
  (forall b, In b (letters g nu) -> In b distinct) -> Z.of_nat (length distinct) < len - nd - ns ->
  Generate fuel g rng len nd ns nu false <> Ok w rest.
Proof.
  intros B A I L E. destruct (Generate_ok _ _ _ _ _ _ _ _ _ _ B E) as [ls [ds [ss [P [L1 [L2 [L3 [I1 [I2 [I3 N]]]]]]]]]].
  assert (Al : ascii (ls ++ ds ++ ss)).
  { destruct A as [A1 [A2 [A3 A4]]]. apply Forall_app. split; [|apply Forall_app; split].
    - eapply ascii_incl; [|exact I1]. apply letters_ascii. repeat split; assumption.
    - eapply ascii_incl; [exact A3|exact I2].
    - eapply ascii_incl; [exact A4|exact I3]. }
  rewrite concat_ascii in P by exact Al. specialize (N A eq_refl).
  apply (Permutation_NoDup P) in N. apply NoDup_app_left in N.
  assert (length ls <= length distinct)%nat; [|lia].
  apply NoDup_incl_length; [exact N|]. intros x Hx. rewrite Forall_forall in I1. auto.
Qed.
Print Assumptions C12_duplicates_never_return.
Example C12_duplicates_example : let g := {| lowerLetters := bytes_of_string "aab"%string; upperLetters := []; digits := Digits; symbols := Symbols |} in
  Generate 50 g (repeat 1 40) 3 0 0 true false = Err ErrReader /\ refusal g 3 0 0 true false = None.
Proof. split; reflexivity. Qed.

(** With one-byte sets the loop spins without even consuming random bytes: no fuel, no stream ends it. *)
Definition hanging : Generator := {| lowerLetters := bytes_of_string "a"%string; upperLetters := bytes_of_string "A"%string; digits := bytes_of_string "a"%string; symbols := bytes_of_string "#"%string |}.
Theorem C12_hang fuel rng : Generate fuel hanging rng 2 1 0 true false = OutOfFuel
  /\ NewGenerator (Some hanging) = hanging.
Proof.
  split; [|reflexivity]. unfold Generate. cbn.
  destruct fuel as [|f]; [reflexivity|]. cbn.
  destruct f as [|f]; [reflexivity|]. cbn.
  revert rng. induction f as [|f IH]; intros rng; [reflexivity|]. exact (IH rng).
Qed.
Print Assumptions C12_hang.
