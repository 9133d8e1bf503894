(** * Proofs about the accepted patterns (C44). *)
From Coq Require Import String.
From Coq Require Import ZArith Arith List Bool Lia.
From Verif Require Import Utf8 GoStr GlobLex GlobMatch GlobSpec GlobParse GlobGramSpec.
Import ListNotations.
Open Scope nat_scope.

Definition bytes (s : str) : Prop := Forall (fun b => 0 <= b)%Z s.
Lemma decode_inv s r w : bytes s -> decode s = (r, w) -> r <> RuneError -> valid_rune r /\ s = encode r ++ skipn w s.
Proof.
  intros B D N. destruct s as [|b0 s1]; [cbn in D; congruence|]. inversion B as [|? ? B0 B1]; subst. unfold decode in D.
  destruct (Z.ltb_spec b0 128) as [L|G].
  - injection D as <- <-. cbn [skipn]. split.
    + split; [lia|]. unfold surrogate, in_range. destruct (Z.leb_spec 55296 b0); [lia|reflexivity].
    + unfold encode, surrogate, in_range. destruct (Z.ltb_spec b0 0); [lia|]. destruct (Z.gtb_spec b0 1114111); [lia|]. destruct (Z.leb_spec 55296 b0); [lia|]. cbn [orb andb]. destruct (Z.ltb_spec b0 128); [reflexivity|lia].
  - destruct s1 as [|b1 s2]; [congruence|]. destruct (ok2 b0 b1) eqn:O2.
    { injection D as <- <-. unfold ok2, cont in O2. rewrite andb_true_iff, !in_range_true in O2. assert (V : (128 <= val2 b0 b1 < 2048)%Z) by (unfold val2; lia). cbn [skipn]. split.
      - split; [lia|]. unfold surrogate, in_range. destruct (Z.leb_spec 55296 (val2 b0 b1)); [lia|reflexivity].
      - unfold encode, surrogate, in_range. destruct (Z.ltb_spec (val2 b0 b1) 0); [lia|]. destruct (Z.gtb_spec (val2 b0 b1) 1114111); [lia|]. destruct (Z.leb_spec 55296 (val2 b0 b1)); [lia|]. cbn [orb andb].
        destruct (Z.ltb_spec (val2 b0 b1) 128); [lia|]. destruct (Z.ltb_spec (val2 b0 b1) 2048); [|lia]. cbn [app]. unfold val2 in *. f_equal; [|f_equal]; [Z.div_mod_to_equations; lia|Z.div_mod_to_equations; lia]. }
    destruct s2 as [|b2 s3]; [congruence|]. destruct (ok3 b0 b1 b2) eqn:O3.
    { injection D as <- <-. unfold ok3, cont in O3. rewrite !andb_true_iff, !orb_true_iff, !andb_true_iff, !orb_true_iff, !in_range_true in O3.
      assert (V : (2048 <= val3 b0 b1 b2 < 65536)%Z) by (unfold val3; lia).
      assert (SU : surrogate (val3 b0 b1 b2) = false) by (unfold surrogate, in_range; destruct (Z.leb_spec 55296 (val3 b0 b1 b2)); [|reflexivity]; destruct (Z.leb_spec (val3 b0 b1 b2) 57343); [|reflexivity]; exfalso; unfold val3 in *; lia).
      cbn [skipn]. split; [split; [lia|exact SU]|]. unfold encode. rewrite SU. destruct (Z.ltb_spec (val3 b0 b1 b2) 0); [lia|]. destruct (Z.gtb_spec (val3 b0 b1 b2) 1114111); [lia|]. cbn [orb].
      destruct (Z.ltb_spec (val3 b0 b1 b2) 128); [lia|]. destruct (Z.ltb_spec (val3 b0 b1 b2) 2048); [lia|]. destruct (Z.ltb_spec (val3 b0 b1 b2) 65536); [|lia]. cbn [app]. clear SU. unfold val3 in *.
      assert (b0 = 224 + ((b0 - 224) * 4096 + (b1 - 128) * 64 + (b2 - 128)) / 4096)%Z by (Z.div_mod_to_equations; lia).
      assert (b1 = 128 + (((b0 - 224) * 4096 + (b1 - 128) * 64 + (b2 - 128)) / 64) mod 64)%Z by (Z.div_mod_to_equations; lia).
      assert (b2 = 128 + ((b0 - 224) * 4096 + (b1 - 128) * 64 + (b2 - 128)) mod 64)%Z by (Z.div_mod_to_equations; lia). congruence. }
    destruct s3 as [|b3 s4]; [congruence|]. destruct (ok4 b0 b1 b2 b3) eqn:O4; [|congruence].
    injection D as <- <-. unfold ok4, cont in O4. rewrite !andb_true_iff, !orb_true_iff, !andb_true_iff, !in_range_true in O4.
    assert (V : (65536 <= val4 b0 b1 b2 b3 <= 1114111)%Z) by (unfold val4; lia).
    assert (SU : surrogate (val4 b0 b1 b2 b3) = false) by (unfold surrogate, in_range; destruct (Z.leb_spec (val4 b0 b1 b2 b3) 57343); [lia|apply andb_false_r]).
    cbn [skipn]. split; [split; [lia|exact SU]|]. unfold encode. rewrite SU. destruct (Z.ltb_spec (val4 b0 b1 b2 b3) 0); [lia|]. destruct (Z.gtb_spec (val4 b0 b1 b2 b3) 1114111); [lia|]. cbn [orb].
    destruct (Z.ltb_spec (val4 b0 b1 b2 b3) 128); [lia|]. destruct (Z.ltb_spec (val4 b0 b1 b2 b3) 2048); [lia|]. destruct (Z.ltb_spec (val4 b0 b1 b2 b3) 65536); [lia|]. cbn [app]. clear SU. unfold val4 in *.
    assert (b0 = 240 + ((b0 - 240) * 262144 + (b1 - 128) * 4096 + (b2 - 128) * 64 + (b3 - 128)) / 262144)%Z by (Z.div_mod_to_equations; lia).
    assert (b1 = 128 + (((b0 - 240) * 262144 + (b1 - 128) * 4096 + (b2 - 128) * 64 + (b3 - 128)) / 4096) mod 64)%Z by (Z.div_mod_to_equations; lia).
    assert (b2 = 128 + (((b0 - 240) * 262144 + (b1 - 128) * 4096 + (b2 - 128) * 64 + (b3 - 128)) / 64) mod 64)%Z by (Z.div_mod_to_equations; lia).
    assert (b3 = 128 + ((b0 - 240) * 262144 + (b1 - 128) * 4096 + (b2 - 128) * 64 + (b3 - 128)) mod 64)%Z by (Z.div_mod_to_equations; lia). congruence.
Qed.
(** Patterns without NUL. *)
Definition good (s : str) : Prop := bytes s /\ ~ In 0%Z s.
Lemma good_app a b : good (a ++ b) <-> good a /\ good b.
Proof. unfold good, bytes. rewrite Forall_app, in_app_iff. tauto. Qed.
Lemma read_inv s r s' : good s -> read s = Some (r, s') -> s <> [] -> writable r /\ s = encode r ++ s'.
Proof.
  intros [B Z0] R N. unfold read in R. destruct s as [|b s]; [contradiction|]. destruct (decode (b :: s)) as [q w] eqn:D. destruct (Z.eqb_spec q RuneError) as [|NE]; [discriminate|]. injection R as <- <-.
  destruct (decode_inv _ _ _ B D NE) as [V E]. split; [|exact E]. split; [exact V|]. split; [|exact NE]. intros ->. apply Z0. rewrite E. change (encode 0) with [0%Z]. left. reflexivity.
Qed.
Lemma read_zero s s' : good s -> read s = Some (0%Z, s') -> s = [] /\ s' = [].
Proof.
  intros G R. destruct s as [|b s]; [cbn in R; injection R as <-; auto|]. destruct (read_inv _ _ _ G R ltac:(discriminate)) as [[_ [X _]] _]. contradiction.
Qed.
Lemma encode_ascii c : (0 <= c < 128)%Z -> encode c = [c].
Proof. intros B. unfold encode, surrogate, in_range. destruct (Z.ltb_spec c 0); [lia|]. destruct (Z.gtb_spec c 1114111); [lia|]. destruct (Z.leb_spec 55296 c); [lia|]. cbn [orb andb]. destruct (Z.ltb_spec c 128); [reflexivity|lia]. Qed.
Lemma encode_length c : 1 <= length (encode c).
Proof. pose proof (encode_nonempty c). destruct (encode c); [contradiction|cbn; lia]. Qed.
Definition plain_set (br : list Z) : Prop := Forall (fun c => 0 < c < 128 /\ c <> cEscape)%Z br.
(** What a text run consumes. *)
Lemma fetchText_inv br : plain_set br -> forall fuel s data d rest, good s -> length s < fuel -> fetchText fuel br false s data = Some (d, rest) ->
  exists cs x, d = rev data ++ cs /\ writes_text br cs x /\ ((s = x ++ rest /\ stops br rest) \/ (s = x ++ [cEscape] /\ rest = [])).
Proof.
  intros PS. induction fuel as [fuel IH] using lt_wf_ind. intros s data d rest G L F. destruct fuel as [|f]; [lia|]. cbn [fetchText] in F.
  destruct (read s) as [[r s']|] eqn:R; [|discriminate]. destruct (Z.eqb_spec r 0) as [->|N0].
  { destruct (read_zero _ _ G R) as [-> ->]. injection F as <- <-. exists [], []. rewrite app_nil_r. split; [reflexivity|]. split; [constructor|]. left. split; [reflexivity|left; reflexivity]. }
  assert (NE : s <> []) by (intros ->; cbn in R; injection R as <- _; contradiction). destruct (read_inv _ _ _ G R NE) as [W E]. pose proof (encode_length r) as LE.
  assert (G' : good s') by (rewrite E in G; apply good_app in G; tauto). cbn [negb andb] in F. destruct (Z.eqb_spec r cEscape) as [->|NEs].
  - rewrite (encode_ascii cEscape) in E by (unfold cEscape; lia). cbn [app] in E. destruct f as [|f]; [rewrite E in L; cbn in L; lia|]. cbn [fetchText negb andb] in F. destruct (read s') as [[r2 s2]|] eqn:R2; [|discriminate].
    destruct (Z.eqb_spec r2 0) as [->|N2].
    { destruct (read_zero _ _ G' R2) as [-> ->]. injection F as <- <-. exists [], []. rewrite app_nil_r. split; [reflexivity|]. split; [constructor|]. right. split; [exact E|reflexivity]. }
    assert (NE2 : s' <> []) by (intros ->; cbn in R2; injection R2 as <- _; contradiction). destruct (read_inv _ _ _ G' R2 NE2) as [W2 E2]. pose proof (encode_length r2) as LE2.
    assert (G2 : good s2) by (rewrite E2 in G'; apply good_app in G'; tauto).
    destruct (IH f ltac:(lia) s2 (r2 :: data) d rest G2 ltac:(rewrite E, E2 in L; cbn [length] in L; rewrite app_length in L; lia) F) as [cs [x [Ed [Wx H]]]].
    exists (r2 :: cs), (cEscape :: encode r2 ++ x). split; [rewrite Ed; cbn [rev]; rewrite <- app_assoc; reflexivity|]. split; [constructor; assumption|].
    destruct H as [[H1 H2]|[H1 H2]]; [left|right]; (split; [|exact H2]); rewrite E, E2, H1; cbn [app]; rewrite <- app_assoc; reflexivity.
  - destruct (existsb (Z.eqb r) br) eqn:X.
    + injection F as <- <-. exists [], []. rewrite app_nil_r. split; [reflexivity|]. split; [constructor|]. left. split; [reflexivity|]. right. apply existsb_exists in X. destruct X as [c [Ic X]]. apply Z.eqb_eq in X. subst c.
      unfold plain_set in PS. rewrite Forall_forall in PS. specialize (PS r Ic). exists r, s'. split; [rewrite E, encode_ascii by lia; reflexivity|]. split; [lia|]. split; [exact Ic|exact NEs].
    + destruct (IH f ltac:(lia) s' (r :: data) d rest G' ltac:(rewrite E in L; rewrite app_length in L; lia) F) as [cs [x [Ed [Wx H]]]].
      exists (r :: cs), (encode r ++ x). split; [rewrite Ed; cbn [rev]; rewrite <- app_assoc; reflexivity|]. split.
      * constructor; [exact W| |exact NEs|exact Wx]. intros I. rewrite (existsb_eqb_in _ _ I) in X. discriminate.
      * destruct H as [[H1 H2]|[H1 H2]]; [left|right]; (split; [|exact H2]); rewrite E, H1, <- app_assoc; reflexivity.
Qed.
Lemma text_inv br s d rest : plain_set br -> good s -> text br s = Some (d, rest) ->
  exists x, writes_text br d x /\ ((s = x ++ rest /\ stops br rest) \/ (s = x ++ [cEscape] /\ rest = [])).
Proof. intros PS G F. destruct (fetchText_inv br PS (S (length s)) s [] d rest G ltac:(lia) F) as [cs [x [-> [W H]]]]. exists x. auto. Qed.
Lemma special_plain a : plain_set (special_in a).
Proof. destruct a; unfold plain_set, special_in, cSingle, cAny, cRangeOpen, cTermsOpen, cTermsClose, cComma, cEscape; cbn [app]; repeat constructor; lia. Qed.

(** ** The grammar of what remains, step by step *)
Inductive R : list Node -> Stack -> str -> Node -> Prop :=
  | R_end cur stk : R cur stk [] (unwind cur stk)
  | R_dangling cur stk : R cur stk [cEscape] (unwind cur stk)
  | R_text cur stk cs x rest t : cs <> [] -> writes_text (special_in (0 <? length stk)) cs x -> stops (special_in (0 <? length stk)) rest \/ rest = [cEscape] ->
      R (NText (utf8 cs) :: cur) stk rest t -> R cur stk (x ++ rest) t
  | R_any cur stk rest t : HasPrefix rest [cAny] = false -> R (NAny :: cur) stk rest t -> R cur stk (cAny :: rest) t
  | R_super cur stk rest t : R (NSuper :: cur) stk rest t -> R cur stk (cAny :: cAny :: rest) t
  | R_single cur stk rest t : R (NSingle :: cur) stk rest t -> R cur stk (cSingle :: rest) t
  | R_class cur stk not n s rest t : class_of not n s -> R (n :: cur) stk rest t -> R cur stk (cRangeOpen :: mark not ++ s ++ cRangeClose :: rest) t
  | R_open cur stk rest t : R [] (([], cur) :: stk) rest t -> R cur stk (cTermsOpen :: rest) t
  | R_sep cur alts up stk rest t : R [] ((NPattern (rev cur) :: alts, up) :: stk) rest t -> R cur ((alts, up) :: stk) (cComma :: rest) t
  | R_close cur alts up stk rest t : R (NAnyOf (rev (NPattern (rev cur) :: alts)) :: up) stk rest t -> R cur ((alts, up) :: stk) (cTermsClose :: rest) t.

(** The tokens of a class. *)
Lemma range_rest_inv s ts rest : good s -> range_rest s = Some (ts, rest) ->
  (exists lo hi, writable lo /\ writable hi /\ s = encode lo ++ cBetween :: encode hi ++ cRangeClose :: rest /\ ts = [TLo (encode lo); TBetween; THi (encode hi); TRangeClose])
  \/ (exists cs x, writes_text [cRangeClose] cs x /\ ~ second_hyphen x /\ s = x ++ cRangeClose :: rest /\ ts = text_tok cs ++ [TRangeClose]).
Proof.
  intros G H. unfold range_rest in H. destruct (read s) as [[r s1]|] eqn:R1; [|discriminate]. destruct (Z.eqb_spec r 0) as [|N0]; [discriminate|].
  assert (NE : s <> []) by (intros ->; cbn in R1; injection R1 as <- _; contradiction). destruct (read_inv _ _ _ G R1 NE) as [W E]. assert (G1 : good s1) by (rewrite E in G; apply good_app in G; tauto).
  destruct (read s1) as [[n s2]|] eqn:R2; [|discriminate]. destruct (Z.eqb_spec n cBetween) as [->|Nb].
  - left. assert (NE1 : s1 <> []) by (intros ->; cbn in R2; discriminate R2). destruct (read_inv _ _ _ G1 R2 NE1) as [_ E1]. assert (G2 : good s2) by (rewrite E1 in G1; apply good_app in G1; tauto).
    destruct (read s2) as [[hi s3]|] eqn:R3; [|discriminate]. destruct (Z.eqb_spec hi 0) as [|Nh]; [discriminate|]. assert (NE2 : s2 <> []) by (intros ->; cbn in R3; injection R3 as <- _; contradiction).
    destruct (read_inv _ _ _ G2 R3 NE2) as [Wh E2]. assert (G3 : good s3) by (rewrite E2 in G2; apply good_app in G2; tauto). destruct (read s3) as [[c s4]|] eqn:R4; [|discriminate].
    destruct (Z.eqb_spec c cRangeClose) as [->|]; [|discriminate]. injection H as <- <-. assert (NE3 : s3 <> []) by (intros ->; cbn in R4; discriminate R4). destruct (read_inv _ _ _ G3 R4 NE3) as [_ E3].
    rewrite (encode_ascii cRangeClose) in E3 by (unfold cRangeClose; lia). rewrite (encode_ascii cBetween) in E1 by (unfold cBetween; lia).
    exists r, hi. split; [exact W|]. split; [exact Wh|]. split; [|reflexivity]. rewrite E, E1, E2, E3. reflexivity.
  - right. destruct (text [cRangeClose] s) as [[d s3]|] eqn:T; [|discriminate]. destruct (read s3) as [[c s4]|] eqn:R4; [|discriminate]. destruct (Z.eqb_spec c cRangeClose) as [->|]; [|discriminate]. injection H as <- <-.
    destruct (text_inv [cRangeClose] s d s3 ltac:(constructor; [unfold cRangeClose, cEscape; lia|constructor]) G T) as [x [Wx [[Es St]|[Es ->]]]]; [|cbn in R4; discriminate R4].
    assert (G3 : good s3) by (rewrite Es in G; apply good_app in G; tauto). assert (NE3 : s3 <> []) by (intros ->; cbn in R4; discriminate R4). destruct (read_inv _ _ _ G3 R4 NE3) as [_ E3]. rewrite (encode_ascii cRangeClose) in E3 by (unfold cRangeClose; lia). cbn [app] in E3.
    exists d, x. split; [exact Wx|]. split; [|split; [rewrite Es, E3; reflexivity|reflexivity]].
    intros [c [y [Wc Ex]]]. rewrite Es, Ex in R1. rewrite <- !app_assoc in R1. rewrite read_rune in R1 by exact Wc. injection R1 as _ <-. cbn [app] in R2. rewrite read_ascii in R2 by (unfold cBetween; lia). injection R2 as <- _. contradiction.
Qed.

Lemma hp1 c s : (0 < c < 128)%Z -> (forall r s1, read s = Some (r, s1) -> r <> c) -> HasPrefix s [c] = false.
Proof. intros B H. destruct (HasPrefix s [c]) eqn:E; [|reflexivity]. apply HasPrefix_iff in E. destruct E as [r ->]. cbn [app] in H. specialize (H c r (read_ascii c r B)). contradiction. Qed.
Lemma hp1_app c x rest : x <> [] -> HasPrefix (x ++ rest) [c] = HasPrefix x [c].
Proof. destruct x as [|b x]; [contradiction|]. reflexivity. Qed.
(** What a class leaves behind. *)
Lemma class_inv s ts rest k cur stk t : good s -> fetchRange s = Some (ts, rest) -> parse (ts ++ k) (Some rstart) cur stk = POk t ->
  exists not n x, class_of not n x /\ s = mark not ++ x ++ cRangeClose :: rest /\ parse k None (n :: cur) stk = POk t.
Proof.
  intros G F P. unfold fetchRange in F. destruct (read s) as [[r s1]|] eqn:R1; [|discriminate].
  assert (B : forall not s0 ts0, good s0 -> (not = false -> HasPrefix s0 [cRangeNot] = false) -> range_rest s0 = Some (ts0, rest) -> parse (ts0 ++ k) (Some {| rnot := not; rlo := 0; rhi := 0; rchars := [] |}) cur stk = POk t ->
              exists n x, class_of not n x /\ s0 = x ++ cRangeClose :: rest /\ parse k None (n :: cur) stk = POk t).
  { intros not s0 ts0 G0 NN F0 P0. destruct (range_rest_inv _ _ _ G0 F0) as [[lo [hi [Wl [Wh [E ->]]]]]|[cs [x [W [SH [E ->]]]]]].
    - cbn [app parse] in P0. rewrite (decode_writable lo Wl), (decode_writable hi Wh), !Nat.ltb_irrefl in P0. cbn [rlo rhi rnot rchars] in P0. destruct (Z.ltb_spec hi lo) as [|Le]; [discriminate|].
      destruct (Wl) as [_ [Nl _]]. destruct (Wh) as [_ [Nh _]]. rewrite (proj2 (Z.eqb_neq lo 0)) in P0 by exact Nl. rewrite (proj2 (Z.eqb_neq hi 0)) in P0 by exact Nh. cbn [negb andb] in P0.
      change (eqs [] []) with true in P0. cbn [negb Bool.eqb] in P0. exists (NRange not lo hi), (encode lo ++ [cBetween] ++ encode hi). split; [|split; [rewrite E, <- !app_assoc; reflexivity|exact P0]].
      constructor; try assumption. intros EN ->. specialize (NN EN). rewrite E in NN. discriminate NN.
    - destruct cs as [|c cs]; [cbn in P0; discriminate P0|]. cbn [text_tok app parse] in P0. cbn [rlo rhi rnot rchars] in P0. rewrite (eqs_nonempty (utf8 (c :: cs))) in P0 by (apply utf8_nonempty; discriminate).
      cbn [Z.eqb negb andb Bool.eqb] in P0. exists (NList not (utf8 (c :: cs))), x. split; [|split; [exact E|exact P0]]. apply co_list; [discriminate|exact W| |exact SH].
      intros EN. specialize (NN EN). rewrite E in NN. destruct x as [|b x]; [reflexivity|]. cbn in NN |- *. exact NN. }
  destruct (Z.eqb_spec r cRangeNot) as [->|NN].
  - assert (NE : s <> []) by (intros ->; cbn in R1; discriminate R1). destruct (read_inv _ _ _ G R1 NE) as [_ E]. assert (G1 : good s1) by (rewrite E in G; apply good_app in G; tauto). rewrite (encode_ascii cRangeNot) in E by (unfold cRangeNot; lia).
    destruct (range_rest s1) as [[ts1 s2]|] eqn:RR; [|discriminate]. injection F as <- <-. cbn [app parse] in P. destruct (B true s1 ts1 G1 ltac:(discriminate) RR P) as [n [x [C [E1 P1]]]].
    exists true, n, x. split; [exact C|]. split; [rewrite E, E1; reflexivity|exact P1].
  - destruct (B false s ts G) as [n [x [C [E1 P1]]]]; [|exact F|exact P|exists false, n, x; auto].
    intros _. apply hp1; [unfold cRangeNot; lia|]. rewrite R1. intros ? ? X. injection X as <- _. exact NN.
Qed.
Lemma parse_R k : forall s cur stk t, length s < k -> good s -> parse (Lx (length stk) s) None cur stk = POk t -> R cur stk s t.
Proof.
  induction k as [|k IH]; intros s cur stk t L G P; [lia|]. rewrite Lx_step in P. unfold fetchItem in P. destruct (read s) as [[r s1]|] eqn:R1; [|cbn in P; discriminate].
  destruct (Z.eqb_spec r 0) as [->|N0]. { destruct (read_zero _ _ G R1) as [-> ->]. cbn [parse] in P. injection P as <-. constructor. }
  assert (NE : s <> []) by (intros ->; cbn in R1; injection R1 as <- _; contradiction). destruct (read_inv _ _ _ G R1 NE) as [W E]. pose proof (encode_length r) as LE.
  assert (G1 : good s1) by (rewrite E in G; apply good_app in G; tauto). assert (L1 : length s1 < k) by (rewrite E, app_length in L; lia).
  assert (A : forall c, r = c -> (0 < c < 128)%Z -> s = c :: s1) by (intros c -> Bc; rewrite E, encode_ascii by lia; reflexivity).
  destruct (Z.eqb_spec r cTermsOpen) as [Er|N1]. { rewrite (A _ Er) by (unfold cTermsOpen; lia). cbn [app parse] in P. apply R_open, (IH s1 [] (([], cur) :: stk) t L1 G1 P). }
  destruct ((r =? cComma)%Z && (0 <? length stk)) eqn:N2.
  { apply andb_true_iff in N2. destruct N2 as [Er Ls]. apply Z.eqb_eq in Er. rewrite (A _ Er) by (unfold cComma; lia). destruct stk as [|[alts up] stk]; [discriminate Ls|]. cbn [app parse] in P. apply R_sep, (IH s1 _ ((NPattern (rev cur) :: alts, up) :: stk) t L1 G1 P). }
  destruct ((r =? cTermsClose)%Z && (0 <? length stk)) eqn:N3.
  { apply andb_true_iff in N3. destruct N3 as [Er Ls]. apply Z.eqb_eq in Er. rewrite (A _ Er) by (unfold cTermsClose; lia). destruct stk as [|[alts up] stk]; [discriminate Ls|]. cbn [app parse length] in P. rewrite Nat.sub_succ, Nat.sub_0_r in P. apply R_close, (IH s1 _ stk t L1 G1 P). }
  destruct (Z.eqb_spec r cRangeOpen) as [Er|N4].
  { rewrite (A _ Er) by (unfold cRangeOpen; lia). destruct (fetchRange s1) as [[ts s2]|] eqn:F; [|cbn in P; discriminate]. cbn [app parse] in P.
    destruct (class_inv _ _ _ _ _ _ _ G1 F P) as [not [n [x [C [E1 P1]]]]]. rewrite E1 in G1, L1 |- *. apply (R_class _ _ _ n); [exact C|]. rewrite !app_length in L1. cbn [length] in L1. rewrite !good_app in G1. destruct G1 as [_ [_ G2]].
    apply (IH s2 _ stk t ltac:(lia)); [|exact P1]. change (cRangeClose :: s2) with ([cRangeClose] ++ s2) in G2. apply good_app in G2. tauto. }
  destruct (Z.eqb_spec r cSingle) as [Er|N5]. { rewrite (A _ Er) by (unfold cSingle; lia). cbn [app parse] in P. apply R_single, (IH s1 _ stk t L1 G1 P). }
  destruct (Z.eqb_spec r cAny) as [Er|N6].
  { rewrite (A _ Er) by (unfold cAny; lia). destruct (read s1) as [[r2 s2]|] eqn:R2; [|cbn in P; discriminate]. destruct (Z.eqb_spec r2 cAny) as [->|NA].
    - assert (NE1 : s1 <> []) by (intros ->; cbn in R2; discriminate R2). destruct (read_inv _ _ _ G1 R2 NE1) as [_ E1]. rewrite (encode_ascii cAny) in E1 by (unfold cAny; lia). rewrite E1 in G1, L1 |- *. cbn [app] in *. apply R_super. cbn [parse length] in P, L1. apply (IH s2 _ stk t ltac:(lia)); [|exact P].
      change (cAny :: s2) with ([cAny] ++ s2) in G1. apply good_app in G1. tauto.
    - cbn [app parse] in P. apply R_any; [|apply (IH s1 _ stk t L1 G1 P)]. apply hp1; [unfold cAny; lia|]. rewrite R2. intros ? ? X. injection X as <- _. exact NA. }
  rewrite (special_breakers (0 <? length stk) (length stk) eq_refl) in P. destruct (text (special_in (0 <? length stk)) s) as [[d s2]|] eqn:T; [|cbn in P; discriminate].
  assert (NI : existsb (Z.eqb r) (special_in (0 <? length stk)) = false).
  { apply existsb_eqb_notin. unfold special_in. intros I. apply in_app_or in I. destruct I as [I|I].
    - cbn [In] in I. intuition congruence.
    - destruct (0 <? length stk); [|destruct I]. cbn [In] in I. rewrite andb_true_r in N2, N3. apply Z.eqb_neq in N2, N3. intuition congruence. }
  pose proof (text_shorter _ _ _ _ _ _ R1 N0 NI T) as LT. destruct (text_inv _ _ _ _ (special_plain _) G T) as [x [Wx [[Es St]|[Es ->]]]].
  - assert (d <> []). { intros ->. inversion Wx; subst x. cbn [app] in Es. subst s2. lia. }
    destruct d as [|c d]; [contradiction|]. cbn [text_tok app parse] in P. rewrite Es. apply R_text with (c :: d); [discriminate|exact Wx|left; exact St|]. apply (IH s2 _ stk t ltac:(lia)); [|exact P]. rewrite Es in G. apply good_app in G. tauto.
  - destruct d as [|c d].
    + inversion Wx; subst x. cbn [app] in Es. cbn in P. injection P as <-. rewrite Es. constructor.
    + rewrite Es. apply R_text with (c :: d); [discriminate|exact Wx|right; reflexivity|]. cbn in P. injection P as <-. constructor.
Qed.

(** ** From the steps to the grammar *)
Fixpoint Gr (stk : Stack) (cur : list Node) (s : str) (t : Node) : Prop :=
  match stk with
  | [] => exists ns x, open_terms false ns x /\ (s = x \/ s = x ++ [cEscape]) /\ t = NPattern (rev cur ++ ns)
  | (alts, up) :: stk' =>
      (exists ns rest x, open_alts (NPattern ns :: rest) x /\ (s = x \/ s = x ++ [cEscape]) /\ t = unwind (NAnyOf (rev alts ++ NPattern (rev cur ++ ns) :: rest) :: up) stk')
      \/ exists ns rest x s2, alts_of (NPattern ns :: rest) x /\ s = x ++ cTermsClose :: s2 /\ Gr stk' (NAnyOf (rev alts ++ NPattern (rev cur ++ ns) :: rest) :: up) s2 t
  end.
Definition follows (a : bool) (n : Node) (s : str) : Prop :=
  match n with NText _ => stops (special_in a) s \/ s = [cEscape] | NAny => HasPrefix s [cAny] = false | _ => True end.
Lemma text_first a cs x r : cs <> [] -> writes_text (special_in a) cs x -> ~ (stops (special_in a) (x ++ r) \/ x ++ r = [cEscape]).
Proof.
  intros N W [[H|[c [y [H [B [I NE]]]]]]|H]; destruct W as [|c0 cs x Wc Nc NEc W|c0 cs x Wc W]; try contradiction.
  - pose proof (encode_length c0) as L. apply (f_equal (@length Z)) in H. rewrite !app_length in H. cbn in H. lia.
  - discriminate H.
  - pose proof (read_rune c0 (x ++ r) Wc) as E. rewrite <- app_assoc in H. rewrite H, read_ascii in E by exact B. injection E as <- _. contradiction.
  - cbn [app] in H. injection H as <- _. contradiction.
  - pose proof (read_rune c0 (x ++ r) Wc) as E. rewrite <- app_assoc in H. rewrite H, read_ascii in E by (unfold cEscape; lia). injection E as <- _. contradiction.
  - pose proof (encode_length c0) as L. apply (f_equal (@length Z)) in H. cbn [app length] in H. rewrite !app_length in H. lia.
Qed.
Lemma follows_terms a n ns x r : terms_of a ns x -> follows a n (x ++ r) -> apart n ns.
Proof.
  intros T F. destruct n; try exact I; destruct T as [|a n0 ns0 s0 t0 T Ap Ts]; try exact I; inversion T; subst; try exact I; try (match goal with C : class_of _ _ _ |- _ => destruct C; exact I end); cbn [follows app] in F.
  - rewrite <- app_assoc in F. eapply text_first in F; [exact F|eassumption|eassumption].
  - discriminate F.
  - discriminate F.
Qed.
Lemma open_cons a n ns y x r : term_of a n y -> open_terms a ns x -> follows a n (x ++ r) -> open_terms a (n :: ns) (y ++ x).
Proof.
  intros T O F. inversion O as [a' ns' s' H|a' ns' alts s' t' H1 H2]; subst.
  - apply ot_done, ts_cons; [exact T| |exact H]. eapply follows_terms; [exact H|exact F].
  - rewrite app_assoc. rewrite app_comm_cons. apply ot_open; [|exact H2]. apply ts_cons; [exact T| |exact H1]. eapply follows_terms; [exact H1|]. rewrite <- !app_assoc in F. exact F.
Qed.
Lemma oalts_cons n ns rest y x r : term_of true n y -> open_alts (NPattern ns :: rest) x -> follows true n (x ++ r) -> open_alts (NPattern (n :: ns) :: rest) (y ++ x).
Proof.
  intros T O F. inversion O as [ns' s' H|ns' rest' s' t' H1 H2]; subst.
  - apply oa_last. eapply open_cons; eauto.
  - rewrite app_assoc. apply oa_cons; [|exact H2]. apply ts_cons; [exact T| |exact H1]. eapply follows_terms; [exact H1|]. rewrite <- !app_assoc in F. exact F.
Qed.
Lemma alts_cons n ns rest y x r : term_of true n y -> alts_of (NPattern ns :: rest) x -> follows true n (x ++ r) -> alts_of (NPattern (n :: ns) :: rest) (y ++ x).
Proof.
  intros T O F. inversion O as [ns' s' H|ns' rest' s' t' H1 H2]; subst.
  - apply al_one, ts_cons; [exact T| |exact H]. eapply follows_terms; [exact H|exact F].
  - rewrite app_assoc. apply al_cons; [|exact H2]. apply ts_cons; [exact T| |exact H1]. eapply follows_terms; [exact H1|]. rewrite <- !app_assoc in F. exact F.
Qed.
Lemma Gr_term n y stk cur s t : term_of (0 <? length stk) n y -> follows (0 <? length stk) n s -> Gr stk (n :: cur) s t -> Gr stk cur (y ++ s) t.
Proof.
  intros T F H. assert (Q : forall x, s = x \/ s = x ++ [cEscape] -> exists r, s = x ++ r) by (intros x [->| ->]; [exists []; rewrite app_nil_r; reflexivity|exists [cEscape]; reflexivity]).
  destruct stk as [|[alts up] stk]; cbn [Gr length] in *.
  - destruct H as [ns [x [O [E ->]]]]. destruct (Q x E) as [r Er]. exists (n :: ns), (y ++ x). split; [eapply open_cons; [exact T|exact O|rewrite <- Er; exact F]|]. split; [|cbn [rev]; rewrite <- app_assoc; reflexivity].
    destruct E as [->| ->]; [left; reflexivity|right; rewrite app_assoc; reflexivity].
  - destruct H as [[ns [rest [x [O [E ->]]]]]|[ns [rest [x [s2 [O [E H]]]]]]].
    + left. destruct (Q x E) as [r Er]. exists (n :: ns), rest, (y ++ x). split; [eapply oalts_cons; [exact T|exact O|rewrite <- Er; exact F]|]. split; [|cbn [rev]; rewrite <- app_assoc; reflexivity].
      destruct E as [->| ->]; [left; reflexivity|right; rewrite app_assoc; reflexivity].
    + right. exists (n :: ns), rest, (y ++ x), s2. split; [eapply alts_cons; [exact T|exact O|rewrite <- E; exact F]|]. split; [rewrite E, app_assoc; reflexivity|]. cbn [rev] in H. rewrite <- app_assoc in H. exact H.
Qed.
Lemma Gr_end stk cur s : s = [] \/ s = [cEscape] -> Gr stk cur s (unwind cur stk).
Proof.
  intros E. destruct stk as [|[alts up] stk]; cbn [Gr unwind].
  - exists [], []. split; [apply ot_done, ts_nil|]. split; [exact E|]. rewrite app_nil_r. reflexivity.
  - left. exists [], [], []. split; [apply oa_last, ot_done, ts_nil|]. split; [exact E|]. rewrite app_nil_r. reflexivity.
Qed.
Lemma open_nonempty alts x : open_alts alts x -> exists ns rest, alts = NPattern ns :: rest.
Proof. intros O. inversion O; eauto. Qed.
Lemma R_Gr cur stk s t : R cur stk s t -> Gr stk cur s t.
Proof.
  induction 1 as [cur stk|cur stk|cur stk cs x rest t N W F H IH|cur stk rest t F H IH|cur stk rest t H IH|cur stk rest t H IH|cur stk not n s rest t C H IH|cur stk rest t H IH|cur alts up stk rest t H IH|cur alts up stk rest t H IH].
  - apply Gr_end. auto.
  - apply Gr_end. auto.
  - apply (Gr_term (NText (utf8 cs)) x); [constructor; assumption|exact F|exact IH].
  - apply (Gr_term NAny [cAny]); [constructor|exact F|exact IH].
  - apply (Gr_term NSuper [cAny; cAny]); [constructor|exact I|exact IH].
  - apply (Gr_term NSingle [cSingle]); [constructor|exact I|exact IH].
  - replace (cRangeOpen :: mark not ++ s ++ cRangeClose :: rest) with (([cRangeOpen] ++ mark not ++ s ++ [cRangeClose]) ++ rest) by (rewrite <- !app_assoc; reflexivity).
    apply (Gr_term n); [apply to_class, C| |exact IH]. destruct C; exact I.
  - cbn [Gr rev app] in IH. destruct IH as [[ns [al [x [O [E ->]]]]]|[ns [al [x [s2 [O [-> IH]]]]]]].
    + assert (OT : forall a, open_terms a [NAnyOf (NPattern ns :: al)] (cTermsOpen :: x)) by (intros a; apply (ot_open a [] _ []); [constructor|exact O]).
      assert (E' : cTermsOpen :: rest = cTermsOpen :: x \/ cTermsOpen :: rest = (cTermsOpen :: x) ++ [cEscape]) by (destruct E as [->| ->]; [left|right]; reflexivity).
      destruct stk as [|[alts up] stk]; cbn [Gr unwind].
      * exists [NAnyOf (NPattern ns :: al)], (cTermsOpen :: x). split; [apply OT|]. split; [exact E'|reflexivity].
      * left. exists [NAnyOf (NPattern ns :: al)], [], (cTermsOpen :: x). split; [apply oa_last, OT|]. split; [exact E'|]. reflexivity.
    + replace (cTermsOpen :: x ++ cTermsClose :: s2) with (([cTermsOpen] ++ x ++ [cTermsClose]) ++ s2) by (rewrite <- !app_assoc; reflexivity). apply (Gr_term (NAnyOf (NPattern ns :: al))); [apply to_anyof, O|exact I|exact IH].
  - cbn [Gr rev app] in IH |- *. destruct IH as [[ns [al [x [O [E ->]]]]]|[ns [al [x [s2 [O [-> IH]]]]]]].
    + left. exists [], (NPattern ns :: al), (cComma :: x). split; [apply (oa_cons [] _ [] x); [constructor|exact O]|]. split; [destruct E as [->| ->]; [left|right]; reflexivity|]. rewrite app_nil_r, <- app_assoc. reflexivity.
    + right. exists [], (NPattern ns :: al), (cComma :: x), s2. split; [apply (al_cons [] _ [] x); [constructor|exact O]|]. split; [reflexivity|]. rewrite app_nil_r. rewrite <- app_assoc in IH. exact IH.
  - cbn [Gr]. right. exists [], [], [], rest. split; [apply al_one; constructor|]. split; [reflexivity|]. rewrite app_nil_r. exact IH.
Qed.
Lemma parse_reads p t : good p -> Parse p = POk t -> reads_pattern t p.
Proof.
  intros G P. apply (parse_R (S (length p)) p [] [] t ltac:(lia) G) in P. apply R_Gr in P. destruct P as [ns [x [O [E ->]]]]. exists ns, x. auto.
Qed.

(** ** From the grammar to the parser *)
Scheme term_of_mut := Minimality for term_of Sort Prop with terms_of_mut := Minimality for terms_of Sort Prop with alts_of_mut := Minimality for alts_of Sort Prop.
Lemma range_rest_text cs s rest : cs <> [] -> writes_text [cRangeClose] cs s -> ~ second_hyphen s ->
  range_rest (s ++ cRangeClose :: rest) = Some ([TText (utf8 cs); TRangeClose], rest).
Proof.
  intros N W H. unfold range_rest. destruct (first_rune_text _ _ _ (cRangeClose :: rest) W N) as [r [s1 [R [N0 I]]]]. rewrite R. rewrite (proj2 (Z.eqb_neq r 0)) by exact N0.
  assert (Q : exists n s2, read s1 = Some (n, s2) /\ n <> cBetween).
  { assert (G : forall c0 cs' s', writable c0 -> s = encode c0 ++ s' -> writes_text [cRangeClose] cs' s' -> exists n s2, read (s' ++ cRangeClose :: rest) = Some (n, s2) /\ n <> cBetween).
    { intros c0 cs' s' W0 Es W'. destruct cs' as [|c' cs'].
      - inversion W'; subst. cbn [app]. rewrite read_ascii by (unfold cRangeClose; lia). exists cRangeClose, rest. split; [reflexivity|discriminate].
      - destruct (first_rune_text _ _ _ (cRangeClose :: rest) W' ltac:(discriminate)) as [n [s2 [Rn [_ _]]]]. exists n, s2. split; [exact Rn|]. intros ->.
        inversion W' as [|c1 cs1 s1' Wc Nc NE W1|c1 cs1 s1' Wc W1]; subst.
        + rewrite <- app_assoc, read_rune in Rn by exact Wc. injection Rn as -> _. apply H. exists c0, s1'. split; [exact W0|]. reflexivity.
        + cbn [app] in Rn. rewrite read_ascii in Rn by (unfold cEscape; lia). discriminate Rn. }
    inversion W as [|c cs' s' Wc Nc NE W'|c cs' s' Wc W']; subst; [contradiction| |].
    - rewrite <- app_assoc, read_rune in R by exact Wc. injection R as <- <-. apply (G c cs' s' Wc eq_refl W').
    - cbn [app] in R. rewrite read_ascii in R by (unfold cEscape; lia). injection R as <- <-. rewrite <- app_assoc, read_rune by exact Wc.
      exists c, (s' ++ cRangeClose :: rest). split; [reflexivity|]. intros ->. apply H. exists cEscape, s'. split; [|reflexivity]. repeat split; unfold cEscape, RuneError; lia || reflexivity. }
  destruct Q as [n [s2 [-> NB]]]. rewrite (proj2 (Z.eqb_neq n cBetween)) by exact NB.
  rewrite (text_writes [cRangeClose] _ cs s (cRangeClose :: rest) W (fun c H => H)).
  - rewrite read_ascii by (unfold cRangeClose; lia). rewrite Z.eqb_refl. destruct cs; [contradiction|reflexivity].
  - right. exists cRangeClose, rest. repeat split; try (unfold cRangeClose; lia); [left; reflexivity|discriminate].
Qed.
Lemma parse_class level not n s rest cur stk : class_of not n s ->
  parse (Lx level (([cRangeOpen] ++ mark not ++ s ++ [cRangeClose]) ++ rest)) None cur stk = parse (Lx level rest) None (n :: cur) stk.
Proof.
  intros [lo hi Wl Wh Le NN|cs x N W H1 H2].
  - rewrite <- (parse_range_node level not lo hi rest cur stk Wl Wh Le NN). rewrite <- !app_assoc. reflexivity.
  - cbn [app]. rewrite <- !app_assoc. cbn [app]. pose proof (range_rest_text cs x rest N W H2) as RR.
    rewrite (item_range level not (x ++ cRangeClose :: rest) rest [TText (utf8 cs); TRangeClose]).
    + assert (U : eqs (utf8 cs) [] = false) by (apply eqs_nonempty, utf8_nonempty, N).
      destruct not; cbn [app parse rchars rlo rhi rnot rstart Z.eqb negb andb]; rewrite U; reflexivity.
    + apply fetchRange_mark; [|exact RR]. intros E. specialize (H1 E). destruct (first_rune_text _ _ _ (cRangeClose :: rest) W N) as [r [s1 [Rr [_ _]]]].
      exists r, s1. split; [exact Rr|]. intros ->.
      inversion W as [|c cs' s' Wc Nc NE W'|c cs' s' Wc W']; subst; [contradiction| |].
      * rewrite <- app_assoc, read_rune in Rr by exact Wc. injection Rr as -> _. cbn in H1. discriminate.
      * cbn [app] in Rr. rewrite read_ascii in Rr by (unfold cEscape; lia). discriminate.
Qed.
Lemma Lx_nil level : Lx level [] = [TEOF].
Proof. reflexivity. Qed.
Lemma Lx_dangling level : Lx level [cEscape] = [TEOF].
Proof. rewrite Lx_step. destruct level; reflexivity. Qed.
Lemma fetchText_dangling br sp cs s : writes_text sp cs s -> (forall c, In c br -> In c sp) -> forall fuel data, length s + 1 < fuel ->
  fetchText fuel br false (s ++ [cEscape]) data = Some (rev data ++ cs, []).
Proof.
  intros W Br. induction W as [|c cs s Wc Nc NE W IH|c cs s Wc W IH]; intros fuel data L.
  - destruct fuel as [|[|f]]; [cbn in L; lia|cbn in L; lia|]. cbn [app fetchText]. rewrite read_ascii by (unfold cEscape; lia). cbn [Z.eqb cEscape negb andb Pos.eqb]. cbn [fetchText read Z.eqb]. rewrite app_nil_r. reflexivity.
  - destruct fuel as [|f]; [lia|]. rewrite <- app_assoc. cbn [fetchText]. rewrite read_rune by exact Wc. destruct (Wc) as [_ [N0 _]]. rewrite (proj2 (Z.eqb_neq c 0)) by exact N0. rewrite (proj2 (Z.eqb_neq c cEscape)) by exact NE. cbn [negb andb].
    rewrite existsb_eqb_notin by (intros I; apply Nc, Br, I). pose proof (encode_length c). rewrite app_length in L. rewrite IH by lia. cbn [rev]. rewrite <- app_assoc. reflexivity.
  - destruct fuel as [|[|f]]; [lia|cbn in L; lia|]. cbn [app]. rewrite <- app_assoc. cbn [fetchText]. rewrite read_ascii by (unfold cEscape; lia). cbn [Z.eqb cEscape negb andb Pos.eqb].
    rewrite read_rune by exact Wc. destruct (Wc) as [_ [N0 _]]. rewrite (proj2 (Z.eqb_neq c 0)) by exact N0. pose proof (encode_length c). cbn [length] in L. rewrite app_length in L. rewrite IH by lia. cbn [rev]. rewrite <- app_assoc. reflexivity.
Qed.
Lemma item_text_dangling a level cs s : (0 <? level) = a -> writes_text (special_in a) cs s -> cs <> [] -> Lx level (s ++ [cEscape]) = TText (utf8 cs) :: Lx level [].
Proof.
  intros A W N. erewrite (Lx_item level (s ++ [cEscape]) [TText (utf8 cs)] level []); [reflexivity| |discriminate].
  destruct (first_rune_text _ _ _ [cEscape] W N) as [r [s1 [R [N0 I]]]]. unfold fetchItem. rewrite R.
  assert (D : (r =? cTermsOpen)%Z = false /\ (r =? cComma)%Z && (0 <? level) = false /\ (r =? cTermsClose)%Z && (0 <? level) = false
              /\ (r =? cRangeOpen)%Z = false /\ (r =? cSingle)%Z = false /\ (r =? cAny)%Z = false).
  { destruct I as [I| ->]; [|repeat split; reflexivity]. rewrite !Z.eqb_neq. rewrite A. unfold special_in in I.
    assert (X : forall c, In c [cSingle; cAny; cRangeOpen; cTermsOpen] -> r <> c) by (intros c Ic ->; apply I, in_or_app; left; exact Ic).
    repeat split; try (apply X; cbn; tauto).
    - destruct a; [|apply andb_false_r]. rewrite andb_true_r. apply Z.eqb_neq. intros ->. apply I, in_or_app. right. cbn. tauto.
    - destruct a; [|apply andb_false_r]. rewrite andb_true_r. apply Z.eqb_neq. intros ->. apply I, in_or_app. right. cbn. tauto. }
  destruct D as [-> [-> [-> [-> [-> ->]]]]]. rewrite (proj2 (Z.eqb_neq r 0)) by exact N0. rewrite (special_breakers a level A).
  unfold text. rewrite (fetchText_dangling _ _ cs s W (fun c H => H)) by (rewrite app_length; cbn; lia). destruct cs; [contradiction|reflexivity].
Qed.
(** What can follow complete terms. *)
Definition after (a : bool) (rest : str) : Prop := rest = [] \/ rest = [cEscape] \/ (exists r, rest = cTermsOpen :: r) \/ (a = true /\ exists r, rest = cComma :: r \/ rest = cTermsClose :: r).
Lemma after_text a rest : after a rest -> stops (special_in a) rest \/ rest = [cEscape].
Proof.
  intros [->|[->|[[r ->]|[-> [r [->| ->]]]]]]; [left; left; reflexivity|right; reflexivity|left; right; eexists _, r|left; right; eexists _, r|left; right; eexists _, r]; (split; [reflexivity|]);
    unfold special_in, cTermsOpen, cComma, cTermsClose, cEscape, cSingle, cAny, cRangeOpen; (split; [lia|]); split; try lia; cbn [app In]; tauto.
Qed.
Lemma after_any a rest : after a rest -> HasPrefix rest [cAny] = false /\ exists r s1, read rest = Some (r, s1).
Proof.
  intros [->|[->|[[r ->]|[-> [r [->| ->]]]]]]; (split; [reflexivity|]); [eexists _, _; reflexivity| | | |]; rewrite read_ascii by (unfold cEscape, cTermsOpen, cComma, cTermsClose; lia); eauto.
Qed.
Lemma term_stops a n s rest : term_of a n s -> (forall t, n <> NText t) -> stops (special_in a) (s ++ rest).
Proof.
  intros T N. inversion T; subst; [exfalso; eapply N; reflexivity| | | | |]; right; eexists _, _; (split; [reflexivity|]);
    unfold special_in, cTermsOpen, cComma, cTermsClose, cEscape, cSingle, cAny, cRangeOpen; (split; [lia|]); split; try lia; cbn [app In]; tauto.
Qed.
Lemma term_any a n s rest : term_of a n s -> n <> NAny -> n <> NSuper -> HasPrefix (s ++ rest) [cAny] = false.
Proof.
  intros T N1 N2. inversion T as [a' cs x Nc W| | | | |]; subst; try contradiction; try reflexivity.
  apply hp1; [unfold cAny; lia|]. destruct (first_rune_text _ _ _ rest W Nc) as [r [s1 [Rr [_ I]]]]. rewrite Rr. intros ? ? X. injection X as <- _. intros ->. destruct I as [I|I]; [apply I; right; left; reflexivity|discriminate I].
Qed.
Lemma term_read a n s rest : term_of a n s -> exists r s1, read (s ++ rest) = Some (r, s1).
Proof.
  intros T. inversion T as [a' cs x Nc W| | | | |]; subst; [destruct (first_rune_text _ _ _ rest W Nc) as [r [s1 [Rr _]]]; eauto| | | | |]; cbn [app]; rewrite read_ascii by (unfold cAny, cSingle, cRangeOpen, cTermsOpen; lia); eauto.
Qed.
Lemma parse_terms : forall a ns s, terms_of a ns s -> forall level rest cur stk, (0 <? level) = a -> after a rest ->
  parse (Lx level (s ++ rest)) None cur stk = parse (Lx level rest) None (rev ns ++ cur) stk.
Proof.
  apply (terms_of_mut
    (fun a n s => forall level rest cur stk, (0 <? level) = a ->
        (forall t, n = NText t -> stops (special_in a) rest \/ rest = [cEscape]) -> (n = NAny -> HasPrefix rest [cAny] = false /\ exists r s1, read rest = Some (r, s1)) ->
        parse (Lx level (s ++ rest)) None cur stk = parse (Lx level rest) None (n :: cur) stk)
    (fun a ns s => forall level rest cur stk, (0 <? level) = a -> after a rest ->
        parse (Lx level (s ++ rest)) None cur stk = parse (Lx level rest) None (rev ns ++ cur) stk)
    (fun ns s => forall level rest alts up stk,
        parse (Lx (S level) (s ++ cTermsClose :: rest)) None [] ((alts, up) :: stk) = parse (Lx level rest) None (NAnyOf (rev alts ++ ns) :: up) stk)).
  - intros a cs s N W level rest cur stk A St _. destruct (St _ eq_refl) as [S1| ->]; [rewrite (item_text a level cs s rest A W N S1); reflexivity|].
    rewrite (item_text_dangling a level cs s A W N), Lx_dangling. reflexivity.
  - intros a level rest cur stk A _ H. destruct (H eq_refl) as [H1 H2]. cbn [app]. rewrite Lx_any by assumption. reflexivity.
  - intros a level rest cur stk A _ _. cbn [app]. rewrite Lx_super. reflexivity.
  - intros a level rest cur stk A _ _. cbn [app]. rewrite Lx_single. reflexivity.
  - intros a not n s C level rest cur stk A _ _. apply parse_class, C.
  - intros a ns s W IH level rest cur stk A _ _. cbn [app]. rewrite <- app_assoc. cbn [app]. rewrite Lx_open. cbn [parse]. rewrite IH. reflexivity.
  - intros a level rest cur stk A E. reflexivity.
  - intros a n ns s t Wn IHn Ap Wt IHt level rest cur stk A E. rewrite <- app_assoc. rewrite IHn; [| exact A| |].
    + rewrite IHt by assumption. cbn [rev]. rewrite <- app_assoc. reflexivity.
    + intros x ->. inversion Wt as [|a' n' ns' s' t' Wn' Ap' Wt']; subst.
      * apply after_text, E.
      * left. rewrite <- app_assoc. eapply term_stops; [exact Wn'|]. intros y ->. exact Ap.
    + intros ->. inversion Wt as [|a' n' ns' s' t' Wn' Ap' Wt']; subst.
      * eapply after_any, E.
      * rewrite <- app_assoc. split; [eapply term_any; [exact Wn'| |]; intros ->; exact Ap|eapply term_read, Wn'].
  - intros ns s W IH level rest alts up stk. rewrite IH; [|reflexivity|right; right; right; split; [reflexivity|exists rest; auto]]. rewrite app_nil_r, Lx_close. cbn [parse rev].
    rewrite rev_involutive. reflexivity.
  - intros ns tl s t W IH Wt IHt level rest alts up stk. rewrite <- !app_assoc. cbn [app]. rewrite IH; [|reflexivity|right; right; right; split; [reflexivity|eexists; left; reflexivity]].
    rewrite app_nil_r, Lx_sep. cbn [parse rev]. rewrite rev_involutive, IHt. cbn [rev]. rewrite <- app_assoc. reflexivity.
Qed.
Scheme open_terms_mut := Minimality for open_terms Sort Prop with open_alts_mut := Minimality for open_alts Sort Prop.
Lemma parse_open : forall a ns s, open_terms a ns s -> forall rest cur stk, (0 <? length stk) = a -> rest = [] \/ rest = [cEscape] ->
  parse (Lx (length stk) (s ++ rest)) None cur stk = POk (unwind (rev ns ++ cur) stk).
Proof.
  assert (D : forall level rest, rest = [] \/ rest = [cEscape] -> Lx level rest = [TEOF]) by (intros level rest [->| ->]; [apply Lx_nil|apply Lx_dangling]).
  apply (open_terms_mut
    (fun a ns s => forall rest cur stk, (0 <? length stk) = a -> rest = [] \/ rest = [cEscape] -> parse (Lx (length stk) (s ++ rest)) None cur stk = POk (unwind (rev ns ++ cur) stk))
    (fun ns s => forall rest alts up stk, rest = [] \/ rest = [cEscape] -> parse (Lx (S (length stk)) (s ++ rest)) None [] ((alts, up) :: stk) = POk (unwind (NAnyOf (rev alts ++ ns) :: up) stk))).
  - intros a ns s T rest cur stk A E. rewrite (parse_terms a ns s T (length stk) rest cur stk A) by (unfold after; tauto). rewrite D by exact E. reflexivity.
  - intros a ns alts s t T O IH rest cur stk A E. rewrite <- !app_assoc. rewrite (parse_terms a ns s T (length stk) _ cur stk A) by (right; right; left; eexists; reflexivity). cbn [app]. rewrite Lx_open. cbn [parse]. rewrite IH by exact E. rewrite rev_app_distr. reflexivity.
  - intros ns s O IH rest alts up stk E. specialize (IH rest [] ((alts, up) :: stk) eq_refl E). cbn [length unwind rev] in IH. rewrite app_nil_r, rev_involutive in IH. exact IH.
  - intros ns al s t T O IH rest alts up stk E. rewrite <- !app_assoc. rewrite (parse_terms true ns s T (S (length stk)) _ [] ((alts, up) :: stk) eq_refl) by (right; right; right; split; [reflexivity|eexists; left; reflexivity]). cbn [app]. rewrite Lx_sep. cbn [parse]. rewrite IH by exact E. rewrite app_nil_r, rev_involutive. cbn [rev]. rewrite <- app_assoc. reflexivity.
Qed.
Lemma reads_parse p t : reads_pattern t p -> Parse p = POk t.
Proof.
  intros [ns [s [-> [O E]]]]. unfold Parse, Lex. change (lex (S (length p)) 0 p) with (Lx 0 p). destruct E as [->| ->].
  - pose proof (parse_open false ns s O [] [] [] eq_refl (or_introl eq_refl)) as H. rewrite !app_nil_r in H. cbn [unwind] in H. rewrite rev_involutive in H. exact H.
  - pose proof (parse_open false ns s O [cEscape] [] [] eq_refl (or_intror eq_refl)) as H. rewrite !app_nil_r in H. cbn [unwind] in H. rewrite rev_involutive in H. exact H.
Qed.
