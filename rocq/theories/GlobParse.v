(** * Proofs about the glob lexer and parser. *)
From Coq Require Import String.
From Coq Require Import ZArith Arith List Bool Lia.
From Verif Require Import Utf8 GoStr GlobLex GlobMatch GlobCompile GlobSpec.
Import ListNotations.
Open Scope nat_scope.

(** ** Progress *)
Lemma read_shorter s r s' : read s = Some (r, s') -> s <> [] -> length s' < length s.
Proof.
  unfold read. destruct s as [|c s]; [intros _ []; reflexivity|]. intros H _.
  pose proof (decode_width (c :: s) ltac:(discriminate)) as W. destruct (decode (c :: s)) as [q w]. cbn [snd] in W.
  destruct (_ =? _)%Z; [discriminate|]. injection H as <- <-. rewrite skipn_length. lia.
Qed.
Lemma read_le s r s' : read s = Some (r, s') -> length s' <= length s.
Proof. destruct s as [|c s]; intros H. - injection H as <- <-. lia. - apply read_shorter in H; [lia|discriminate]. Qed.
Lemma read_nonzero s r s' : read s = Some (r, s') -> r <> 0%Z -> length s' < length s.
Proof. intros H N. eapply read_shorter; [exact H|]. intros ->. injection H as <- _. contradiction. Qed.
Lemma fetchText_le fuel : forall br esc s data d s', fetchText fuel br esc s data = Some (d, s') -> length s' <= length s.
Proof.
  induction fuel as [|f IH]; intros br esc s data d s' H; cbn [fetchText] in H.
  - injection H as _ <-. lia.
  - destruct (read s) as [[r s1]|] eqn:R; [|discriminate]. pose proof (read_le _ _ _ R).
    destruct (_ =? 0)%Z; [injection H as _ <-; lia|].
    destruct (_ && _). { apply IH in H. lia. }
    destruct (_ && _). { injection H as _ <-. lia. }
    apply IH in H. lia.
Qed.
Lemma fetchText_fuel fuel : forall br esc s data, length s < fuel -> forall fuel', length s < fuel' ->
  fetchText fuel br esc s data = fetchText fuel' br esc s data.
Proof.
  induction fuel as [|f IH]; intros br esc s data L fuel' L'; [lia|]. destruct fuel' as [|f']; [lia|]. cbn [fetchText].
  destruct (read s) as [[r s1]|] eqn:R; [|reflexivity].
  destruct (r =? 0)%Z eqn:E; [reflexivity|]. apply Z.eqb_neq in E. pose proof (read_nonzero _ _ _ R E).
  destruct (negb esc && (r =? cEscape)%Z); [apply IH; lia|]. destruct (negb esc && _); [reflexivity|]. apply IH; lia.
Qed.
(** [text] with any sufficient fuel. *)
Lemma text_fuel fuel br s : length s < fuel -> fetchText fuel br false s [] = text br s.
Proof. intros L. unfold text. apply fetchText_fuel; lia. Qed.
Lemma text_le br s d s' : text br s = Some (d, s') -> length s' <= length s.
Proof. apply fetchText_le. Qed.
Lemma text_shorter br s r s1 d s' : read s = Some (r, s1) -> r <> 0%Z -> existsb (Z.eqb r) br = false -> text br s = Some (d, s') -> length s' < length s.
Proof.
  intros R N B H. unfold text in H. cbn [fetchText] in H. rewrite R in H. pose proof (read_nonzero _ _ _ R N).
  rewrite (proj2 (Z.eqb_neq _ _) N) in H. cbn [negb andb] in H. rewrite B in H.
  destruct (_ =? cEscape)%Z; apply fetchText_le in H; lia.
Qed.
Lemma range_rest_le s ts s' : range_rest s = Some (ts, s') -> length s' <= length s.
Proof.
  unfold range_rest. destruct (read s) as [[r s1]|] eqn:R; [|discriminate]. apply read_le in R.
  destruct (_ =? 0)%Z; [discriminate|]. destruct (read s1) as [[n s2]|] eqn:R1; [|discriminate]. apply read_le in R1.
  destruct (_ =? cBetween)%Z.
  - destruct (read s2) as [[h s3]|] eqn:R2; [|discriminate]. apply read_le in R2. destruct (_ =? 0)%Z; [discriminate|].
    destruct (read s3) as [[c s4]|] eqn:R3; [|discriminate]. apply read_le in R3. destruct (_ =? _)%Z; [|discriminate].
    intros H. injection H as _ <-. lia.
  - destruct (text [cRangeClose] s) as [[d s3]|] eqn:T; [|discriminate]. apply text_le in T.
    destruct (read s3) as [[c s4]|] eqn:R3; [|discriminate]. apply read_le in R3. destruct (_ =? _)%Z; [|discriminate].
    intros H. injection H as _ <-. lia.
Qed.
Lemma fetchRange_le s ts s' : fetchRange s = Some (ts, s') -> length s' <= length s.
Proof.
  unfold fetchRange. destruct (read s) as [[r s1]|] eqn:R; [|discriminate]. apply read_le in R. destruct (_ =? _)%Z.
  - destruct (range_rest s1) as [[t s2]|] eqn:E; [|discriminate]. apply range_rest_le in E. intros H. injection H as _ <-. lia.
  - apply range_rest_le.
Qed.

(** The shapes of the tokens of one item. *)
Definition range_toks (ts : list Tok) : Prop :=
  exists pre post, (pre = [] \/ pre = [TNot]) /\ ts = TRangeOpen :: pre ++ post ++ [TRangeClose]
    /\ ((exists a b, post = [TLo (encode a); TBetween; THi (encode b)]) \/ exists d, post = text_tok d).
Definition item (level : nat) (ts : list Tok) (level' : nat) : Prop :=
  (ts = [TOpen] /\ level' = S level) \/ (ts = [TSep] /\ level' = level /\ 0 < level) \/ (ts = [TClose] /\ level = S level')
  \/ (range_toks ts /\ level' = level) \/ (ts = [TSingle] /\ level' = level) \/ (ts = [TAny] /\ level' = level) \/ (ts = [TSuper] /\ level' = level)
  \/ ((exists d, ts = text_tok d) /\ level' = level).
Lemma range_rest_toks s ts s' : range_rest s = Some (ts, s') -> exists post, ts = post ++ [TRangeClose]
    /\ ((exists a b, post = [TLo (encode a); TBetween; THi (encode b)]) \/ exists d, post = text_tok d).
Proof.
  unfold range_rest. destruct (read s) as [[r s1]|] eqn:R; [|discriminate].
  destruct (_ =? 0)%Z; [discriminate|]. destruct (read s1) as [[n s2]|] eqn:R1; [|discriminate].
  destruct (_ =? cBetween)%Z.
  - destruct (read s2) as [[h s3]|] eqn:R2; [|discriminate]. destruct (_ =? 0)%Z; [discriminate|].
    destruct (read s3) as [[c s4]|] eqn:R3; [|discriminate]. destruct (_ =? _)%Z; [|discriminate].
    intros H. injection H as <- <-. eexists [TLo (encode r); TBetween; THi (encode h)]. split; [reflexivity|]. left. eauto.
  - destruct (text [cRangeClose] s) as [[d s3]|] eqn:T; [|discriminate].
    destruct (read s3) as [[c s4]|] eqn:R3; [|discriminate]. destruct (_ =? _)%Z; [|discriminate].
    intros H. injection H as <- <-. eexists. split; [reflexivity|]. right. eauto.
Qed.
Lemma fetchRange_toks s ts s' : fetchRange s = Some (ts, s') -> range_toks (TRangeOpen :: ts).
Proof.
  unfold fetchRange. destruct (read s) as [[r s1]|] eqn:R; [|discriminate]. destruct (_ =? _)%Z.
  - destruct (range_rest s1) as [[t s2]|] eqn:E; [|discriminate]. apply range_rest_toks in E. destruct E as [post [-> P]].
    intros H. injection H as <- _. exists [TNot], post. auto.
  - intros H. apply range_rest_toks in H. destruct H as [post [-> P]]. exists [], post. auto.
Qed.
Lemma fetchItem_inv level s ts level' s' : fetchItem level s = Some (ts, level', s') ->
  ts = [TEOF] \/ (item level ts level' /\ length s' < length s).
Proof.
  unfold fetchItem. destruct (read s) as [[r s1]|] eqn:R; [|discriminate].
  destruct (r =? 0)%Z eqn:E0. { intros H. injection H as <- _ _. auto. }
  apply Z.eqb_neq in E0. pose proof (read_nonzero _ _ _ R E0) as L. intros H. right. unfold item.
  destruct (r =? cTermsOpen)%Z eqn:E1. { injection H as <- <- <-. auto. }
  destruct (r =? cComma)%Z eqn:E2.
  { cbn [andb] in H. destruct (Nat.ltb_spec 0 level) as [G|G].
    - injection H as <- <- <-. split; [|exact L]. right; left. auto.
    - apply Z.eqb_eq in E2. subst r. cbn [Z.eqb andb cComma cTermsClose cRangeOpen cSingle cAny Pos.eqb] in H.
      destruct (text _ s) as [[d s2]|] eqn:T; [|discriminate]. injection H as <- <- <-. split; [intuition eauto 10|]. eapply text_shorter; [exact R|exact E0| |exact T]; reflexivity. }
  destruct (r =? cTermsClose)%Z eqn:E3.
  { cbn [andb] in H. destruct (Nat.ltb_spec 0 level) as [G|G].
    - injection H as <- <- <-. split; [|exact L]. right; right; left. split; [reflexivity|lia].
    - apply Z.eqb_eq in E3. subst r. cbn [Z.eqb andb cComma cTermsClose cRangeOpen cSingle cAny Pos.eqb] in H.
      destruct (text _ s) as [[d s2]|] eqn:T; [|discriminate]. injection H as <- <- <-. split; [intuition eauto 10|]. eapply text_shorter; [exact R|exact E0| |exact T]; reflexivity. }
  cbn [andb] in H.
  destruct (r =? cRangeOpen)%Z eqn:E4.
  { destruct (fetchRange s1) as [[t s2]|] eqn:F; [|discriminate]. injection H as <- <- <-. split.
    - right; right; right; left. split; [|reflexivity]. eapply fetchRange_toks; eauto.
    - apply fetchRange_le in F. lia. }
  destruct (r =? cSingle)%Z eqn:E5. { injection H as <- <- <-. intuition. }
  destruct (r =? cAny)%Z eqn:E6.
  { destruct (read s1) as [[r2 s2]|] eqn:R1; [|discriminate]. apply read_le in R1. destruct (r2 =? cAny)%Z; injection H as <- <- <-; (split; [intuition|lia]). }
  destruct (text _ s) as [[d s2]|] eqn:T; [|discriminate]. injection H as <- <- <-. split; [intuition eauto 10|].
  eapply text_shorter; [exact R|exact E0| |exact T]. unfold inTermsBreakers, inTextBreakers. destruct (0 <? level); cbn [existsb app]; rewrite ?E1, ?E2, ?E3, ?E4, ?E5, ?E6; reflexivity.
Qed.
(** An item never looks like the end token. *)
Lemma item_not_eof level ts level' : item level ts level' -> ts <> [TEOF].
Proof.
  intros I ->. unfold item in I.
  destruct I as [[A _]|[[A _]|[[A _]|[[A _]|[[A _]|[[A _]|[[A _]|[[d A] _]]]]]]]]; try discriminate A.
  - destruct A as [pre [post [_ [A _]]]]. discriminate A.
  - destruct d; discriminate A.
Qed.

(** Lexing with enough fuel. *)
Definition Lx (level : nat) (s : str) : list Tok := lex (S (length s)) level s.
Lemma lex_fuel fuel : forall level s, length s < fuel -> forall fuel', length s < fuel' -> lex fuel level s = lex fuel' level s.
Proof.
  induction fuel as [|f IH]; intros level s L fuel' L'; [lia|]. destruct fuel' as [|f']; [lia|]. cbn [lex].
  destruct (fetchItem level s) as [[[ts l'] s']|] eqn:F; [|reflexivity]. apply fetchItem_inv in F.
  destruct F as [->|[I G]]; [reflexivity|].
  assert (E : ts ++ lex f l' s' = ts ++ lex f' l' s') by (f_equal; apply IH; lia).
  destruct ts as [|t ts]; [exact E|]. destruct t; try exact E. destruct ts; [|exact E]. reflexivity.
Qed.
Lemma Lx_step level s : Lx level s = match fetchItem level s with
                                     | None => [TError]
                                     | Some ([TEOF], _, _) => [TEOF]
                                     | Some (ts, level', s') => ts ++ Lx level' s'
                                     end.
Proof.
  unfold Lx at 1. cbn [lex]. destruct (fetchItem level s) as [[[ts l'] s']|] eqn:F; [|reflexivity]. apply fetchItem_inv in F.
  destruct F as [->|[I G]]; [reflexivity|].
  assert (E : ts ++ lex (length s) l' s' = ts ++ Lx l' s') by (f_equal; apply lex_fuel; lia).
  destruct ts as [|t ts]; [exact E|]. destruct t; try exact E. destruct ts; [|exact E]. reflexivity.
Qed.
Lemma Lx_item level s ts level' s' : fetchItem level s = Some (ts, level', s') -> ts <> [TEOF] -> Lx level s = ts ++ Lx level' s'.
Proof.
  intros F N. rewrite Lx_step, F. destruct ts as [|t ts]; [reflexivity|]. destruct t; try reflexivity. destruct ts; [contradiction|reflexivity].
Qed.
Lemma Lx_cases level s : Lx level s = [TError] \/ Lx level s = [TEOF]
  \/ exists ts level' s', item level ts level' /\ length s' < length s /\ Lx level s = ts ++ Lx level' s'.
Proof.
  destruct (fetchItem level s) as [[[ts l'] s']|] eqn:F.
  - destruct (fetchItem_inv _ _ _ _ _ F) as [->|[I G]].
    + rewrite Lx_step, F. auto.
    + right; right. exists ts, l', s'. split; [exact I|]. split; [exact G|]. eapply Lx_item; [exact F|]. eapply item_not_eof; eauto.
  - rewrite Lx_step, F. auto.
Qed.

(** ** C43: no crash *)
(** What the parser does with the tokens of a character class. *)
Lemma parse_range ts k cur stk : range_toks ts -> parse (ts ++ k) None cur stk = PErr \/ exists n, parse (ts ++ k) None cur stk = parse k None (n :: cur) stk.
Proof.
  intros [pre [post [P [-> Q]]]]. cbn [app parse]. rewrite <- !app_assoc. cbn [app].
  assert (G : forall st, parse (post ++ TRangeClose :: k) (Some st) cur stk = PErr \/ exists n, parse (post ++ TRangeClose :: k) (Some st) cur stk = parse k None (n :: cur) stk).
  { intros st. destruct Q as [[a [b ->]]|[d ->]].
    - cbn [app parse]. destruct (decode (encode a)) as [ra wa]. destruct (_ <? _); [auto|]. destruct (decode (encode b)) as [rb wb]. destruct (_ <? _); [auto|].
      destruct (_ <? _)%Z; [auto|]. cbn [rlo rhi rnot rchars]. destruct (Bool.eqb _ _); eauto.
    - destruct d as [|c d]; cbn [text_tok app parse].
      + destruct (Bool.eqb _ _); eauto.
      + destruct (Bool.eqb _ _); eauto. }
  destruct P as [->| ->]; cbn [app parse]; apply G.
Qed.
Lemma parse_nocrash fuel : forall level s cur stk, length s < fuel -> level = length stk -> parse (Lx level s) None cur stk <> PCrash.
Proof.
  induction fuel as [|f IH]; intros level s cur stk L E; [lia|].
  destruct (Lx_cases level s) as [A|[A|[ts [l' [s' [I [G A]]]]]]]; rewrite A; [discriminate|discriminate|].
  unfold item in I. destruct I as [[-> ->]|[[-> [-> Q]]|[[-> ->]|[[R ->]|[[-> ->]|[[-> ->]|[[-> ->]|[[d ->] ->]]]]]]]].
  - cbn [app parse]. apply IH; [lia|]. cbn [length]. congruence.
  - destruct stk as [|[al up] stk]; [cbn in E; lia|]. cbn [app parse]. apply IH; [lia|]. exact E.
  - destruct stk as [|[al up] stk]; [discriminate E|]. cbn [app parse]. apply IH; [lia|]. cbn in E. lia.
  - destruct (parse_range ts (Lx level s') cur stk R) as [B|[n B]]; rewrite B; [discriminate|]. apply IH; [lia|exact E].
  - cbn [app parse]. apply IH; [lia|exact E].
  - cbn [app parse]. apply IH; [lia|exact E].
  - cbn [app parse]. apply IH; [lia|exact E].
  - destruct d; cbn [text_tok app parse]; (apply IH; [lia|exact E]).
Qed.
(** The token list ends with the end of input or an error, and contains no other. *)
Definition closed_toks (ts : list Tok) : Prop := exists body e, ts = body ++ [e] /\ (e = TEOF \/ e = TError) /\ ~ In TEOF body /\ ~ In TError body.
Lemma item_noend level ts level' : item level ts level' -> ~ In TEOF ts /\ ~ In TError ts.
Proof.
  intros I. unfold item in I. destruct I as [[-> _]|[[-> _]|[[-> _]|[[R _]|[[-> _]|[[-> _]|[[-> _]|[[d ->] _]]]]]]]]; try (cbn; intuition discriminate).
  - destruct R as [pre [post [P [-> Q]]]].
    assert (X : forall t, t = TEOF \/ t = TError -> ~ In t (TRangeOpen :: pre ++ post ++ [TRangeClose])).
    { intros t T [D|D]; [destruct T; subst; discriminate|]. rewrite !in_app_iff in D. destruct D as [D|[D|[D|[]]]].
      - destruct P as [->| ->]; [destruct D|]. destruct D as [D|[]]. destruct T; subst; discriminate.
      - destruct Q as [[a [b ->]]|[d ->]].
        + destruct D as [D|[D|[D|[]]]]; destruct T; subst; discriminate.
        + destruct d; [destruct D|]. destruct D as [D|[]]. destruct T; subst; discriminate.
      - destruct T; subst; discriminate. }
    split; apply X; auto.
  - destruct d; cbn; intuition discriminate.
Qed.
Lemma Lx_closed fuel : forall level s, length s < fuel -> closed_toks (Lx level s).
Proof.
  induction fuel as [|f IH]; intros level s L; [lia|].
  destruct (Lx_cases level s) as [A|[A|[ts [l' [s' [I [G A]]]]]]]; rewrite A.
  - exists [], TError. cbn. auto.
  - exists [], TEOF. cbn. auto.
  - destruct (IH l' s' ltac:(lia)) as [body [e [E [T [N1 N2]]]]]. destruct (item_noend _ _ _ I) as [M1 M2].
    exists (ts ++ body), e. rewrite E, app_assoc, !in_app_iff. intuition.
Qed.

(** ** C44: reading what was written *)
Lemma read_rune c rest : writable c -> read (encode c ++ rest) = Some (c, rest).
Proof.
  intros [V [N0 NE]]. unfold read. pose proof (encode_nonempty c) as NN. destruct (encode c ++ rest) as [|x l] eqn:E.
  { destruct (encode c); [contradiction|discriminate]. }
  rewrite <- E. rewrite decode_encode by exact V. rewrite (proj2 (Z.eqb_neq _ _) NE). rewrite skipn_app, skipn_all, Nat.sub_diag. reflexivity.
Qed.
Lemma read_ascii c rest : (0 < c < 128)%Z -> read (c :: rest) = Some (c, rest).
Proof. intros B. unfold read, decode. rewrite (proj2 (Z.ltb_lt c 128)) by lia. rewrite (proj2 (Z.eqb_neq c RuneError)) by (unfold RuneError; lia). reflexivity. Qed.
(** Where a text stops: the end, or a character that cannot be plain. *)
Definition stops (sp : list Z) (rest : str) : Prop := rest = [] \/ exists c r, rest = c :: r /\ (0 < c < 128)%Z /\ In c sp /\ c <> cEscape.
Lemma existsb_eqb_in c l : In c l -> existsb (Z.eqb c) l = true.
Proof. intros H. apply existsb_exists. exists c. split; [exact H|apply Z.eqb_refl]. Qed.
Lemma existsb_eqb_notin c l : ~ In c l -> existsb (Z.eqb c) l = false.
Proof. intros H. destruct (existsb _ l) eqn:E; [|reflexivity]. apply existsb_exists in E. destruct E as [x [I X]]. apply Z.eqb_eq in X. subst. contradiction. Qed.
Lemma fetchText_writes br sp cs s : writes_text sp cs s -> (forall c, In c br -> In c sp) -> forall fuel data rest, stops br rest -> length (s ++ rest) < fuel ->
  fetchText fuel br false (s ++ rest) data = Some (rev data ++ cs, rest).
Proof.
  intros W Sub. induction W as [|c cs s Wc Nc NEs W IH|c cs s Wc W IH]; intros fuel data rest St L; (destruct fuel as [|f]; [lia|]).
  - cbn [app fetchText]. rewrite app_nil_r. destruct St as [->|[c [r [-> [B [I NE]]]]]].
    + reflexivity.
    + rewrite read_ascii by exact B. rewrite (proj2 (Z.eqb_neq c 0)) by lia. cbn [negb andb].
      rewrite (proj2 (Z.eqb_neq c cEscape)) by exact NE. rewrite existsb_eqb_in by exact I. reflexivity.
  - cbn [fetchText]. rewrite <- app_assoc in *. rewrite read_rune by exact Wc. destruct Wc as [V [N0 N1]].
    rewrite (proj2 (Z.eqb_neq c 0)) by exact N0. cbn [negb andb]. rewrite (proj2 (Z.eqb_neq c cEscape)) by exact NEs.
    rewrite existsb_eqb_notin by (intros I; apply Nc, Sub, I). rewrite IH.
    + cbn [rev]. rewrite <- app_assoc. reflexivity.
    + exact St.
    + rewrite app_length in L. pose proof (encode_nonempty c). destruct (encode c); [contradiction|]. cbn in L. lia.
  - assert (1 <= length (encode c)) by (pose proof (encode_nonempty c); destruct (encode c); [contradiction|cbn; lia]).
    cbn [app length] in L. rewrite !app_length in L. destruct f as [|f]; [lia|].
    cbn [fetchText app]. rewrite read_ascii by (unfold cEscape; lia). cbn [Z.eqb cEscape negb andb Pos.eqb]. rewrite <- app_assoc.
    rewrite read_rune by exact Wc. destruct Wc as [V [N0 N1]].
    rewrite (proj2 (Z.eqb_neq c 0)) by exact N0. cbn [negb andb]. rewrite IH.
    + cbn [rev]. rewrite <- app_assoc. reflexivity.
    + exact St.
    + rewrite app_length. lia.
Qed.
Lemma text_writes br sp cs s rest : writes_text sp cs s -> (forall c, In c br -> In c sp) -> stops br rest -> text br (s ++ rest) = Some (cs, rest).
Proof. intros W Sub St. unfold text. apply (fetchText_writes br sp cs s W Sub _ [] rest St). lia. Qed.
Lemma special_breakers a level : (0 <? level) = a -> (if 0 <? level then inTermsBreakers else inTextBreakers) = special_in a.
Proof. intros ->. destruct a; reflexivity. Qed.
Lemma first_rune_text sp cs s rest : writes_text sp cs s -> cs <> [] -> exists r s1, read (s ++ rest) = Some (r, s1) /\ r <> 0%Z /\ (~ In r sp \/ r = cEscape).
Proof.
  intros W N. destruct W as [|c cs s Wc Nc NE W|c cs s Wc W]; [contradiction| |].
  - rewrite <- app_assoc, read_rune by exact Wc. exists c, (s ++ rest). split; [reflexivity|]. split; [apply Wc|]. auto.
  - cbn [app]. rewrite read_ascii by (unfold cEscape; lia). exists cEscape, ((encode c ++ s) ++ rest). split; [reflexivity|]. split; [unfold cEscape; lia|]. auto.
Qed.
Lemma item_text a level cs s rest : (0 <? level) = a -> writes_text (special_in a) cs s -> cs <> [] -> stops (special_in a) rest ->
  Lx level (s ++ rest) = TText (utf8 cs) :: Lx level rest.
Proof.
  intros A W N St. erewrite (Lx_item level (s ++ rest) [TText (utf8 cs)] level rest); [reflexivity| |discriminate].
  destruct (first_rune_text _ _ _ rest W N) as [r [s1 [R [N0 I]]]]. unfold fetchItem. rewrite R.
  assert (D : (r =? cTermsOpen)%Z = false /\ (r =? cComma)%Z && (0 <? level) = false /\ (r =? cTermsClose)%Z && (0 <? level) = false
              /\ (r =? cRangeOpen)%Z = false /\ (r =? cSingle)%Z = false /\ (r =? cAny)%Z = false).
  { destruct I as [I| ->]; [|repeat split; reflexivity]. rewrite !Z.eqb_neq. rewrite A. unfold special_in in I.
    assert (X : forall c, In c [cSingle; cAny; cRangeOpen; cTermsOpen] -> r <> c) by (intros c Ic ->; apply I, in_or_app; left; exact Ic).
    repeat split; try (apply X; cbn; tauto).
    - destruct a; [|apply andb_false_r]. rewrite andb_true_r. apply Z.eqb_neq. intros ->. apply I, in_or_app. right. cbn. tauto.
    - destruct a; [|apply andb_false_r]. rewrite andb_true_r. apply Z.eqb_neq. intros ->. apply I, in_or_app. right. cbn. tauto. }
  destruct D as [-> [-> [-> [-> [-> ->]]]]]. rewrite (proj2 (Z.eqb_neq r 0)) by exact N0. rewrite (special_breakers a level A).
  rewrite (text_writes _ _ cs s rest W (fun c H => H) St). destruct cs; [contradiction|reflexivity].
Qed.
(** Character classes. *)
Lemma range_rest_list cs s rest : cs <> [] -> writes_text [cBetween; cRangeClose] cs s -> HasPrefix s [cEscape; cBetween] = false ->
  range_rest (s ++ cRangeClose :: rest) = Some ([TText (utf8 cs); TRangeClose], rest).
Proof.
  intros N W H. unfold range_rest.
  destruct (first_rune_text _ _ _ (cRangeClose :: rest) W N) as [r [s1 [R [N0 I]]]]. rewrite R. rewrite (proj2 (Z.eqb_neq r 0)) by exact N0.
  assert (Q : exists n s2, read s1 = Some (n, s2) /\ n <> cBetween).
  { assert (G : forall cs' s', writes_text [cBetween; cRangeClose] cs' s' -> exists n s2, read (s' ++ cRangeClose :: rest) = Some (n, s2) /\ n <> cBetween).
    { intros cs' s' W'. destruct cs' as [|c' cs'].
      - inversion W'; subst. cbn [app]. rewrite read_ascii by (unfold cRangeClose; lia). exists cRangeClose, rest. split; [reflexivity|discriminate].
      - destruct (first_rune_text _ _ _ (cRangeClose :: rest) W' ltac:(discriminate)) as [n [s2 [Rn [_ In]]]]. exists n, s2. split; [exact Rn|].
        intros ->. destruct In as [In|In]; [apply In; left; reflexivity|discriminate]. }
    inversion W as [|c cs' s' Wc Nc NE W'|c cs' s' Wc W']; subst; [contradiction| |].
    - rewrite <- app_assoc, read_rune in R by exact Wc. injection R as <- <-. apply (G cs' s' W').
    - cbn [app] in R. rewrite read_ascii in R by (unfold cEscape; lia). injection R as <- <-. rewrite <- app_assoc, read_rune by exact Wc.
      exists c, (s' ++ cRangeClose :: rest). split; [reflexivity|]. intros ->. cbn in H. discriminate H. }
  destruct Q as [n [s2 [-> NB]]]. rewrite (proj2 (Z.eqb_neq n cBetween)) by exact NB.
  rewrite (text_writes [cRangeClose] _ cs s (cRangeClose :: rest) W).
  - rewrite read_ascii by (unfold cRangeClose; lia). rewrite Z.eqb_refl. destruct cs; [contradiction|reflexivity].
  - intros c [<-|[]]. right; left. reflexivity.
  - right. exists cRangeClose, rest. repeat split; try (unfold cRangeClose; lia); [left; reflexivity|discriminate].
Qed.
Lemma range_rest_range lo hi rest : writable lo -> writable hi ->
  range_rest (encode lo ++ cBetween :: encode hi ++ cRangeClose :: rest) = Some ([TLo (encode lo); TBetween; THi (encode hi); TRangeClose], rest).
Proof.
  intros Wl Wh. unfold range_rest. rewrite read_rune by exact Wl. destruct Wl as [Vl [Nl _]]. rewrite (proj2 (Z.eqb_neq lo 0)) by exact Nl.
  rewrite read_ascii by (unfold cBetween; lia). rewrite Z.eqb_refl. rewrite read_rune by exact Wh. destruct Wh as [Vh [Nh _]].
  rewrite (proj2 (Z.eqb_neq hi 0)) by exact Nh. rewrite read_ascii by (unfold cRangeClose; lia). rewrite Z.eqb_refl. reflexivity.
Qed.
Lemma fetchRange_mark not body s' ts : (not = false -> exists r s1, read body = Some (r, s1) /\ r <> cRangeNot) -> range_rest body = Some (ts, s') ->
  fetchRange (mark not ++ body) = Some ((if not then [TNot] else []) ++ ts, s').
Proof.
  intros H R. unfold fetchRange. destruct not; cbn [mark app].
  - rewrite read_ascii by (unfold cRangeNot; lia). rewrite Z.eqb_refl, R. reflexivity.
  - destruct (H eq_refl) as [r [s1 [-> N]]]. rewrite (proj2 (Z.eqb_neq _ _) N). exact R.
Qed.
Lemma item_range level not body rest ts : fetchRange (mark not ++ body) = Some ((if not then [TNot] else []) ++ ts, rest) ->
  Lx level (cRangeOpen :: mark not ++ body) = TRangeOpen :: (if not then [TNot] else []) ++ ts ++ Lx level rest.
Proof.
  intros F. rewrite (Lx_item level _ (TRangeOpen :: (if not then [TNot] else []) ++ ts) level rest).
  - cbn [app]. rewrite app_assoc. reflexivity.
  - unfold fetchItem. rewrite read_ascii by (unfold cRangeOpen; lia). cbn [Z.eqb cRangeOpen cTermsOpen cComma cTermsClose Pos.eqb andb].
    rewrite F. reflexivity.
  - destruct not; discriminate.
Qed.
Lemma eqs_nonempty s : s <> [] -> eqs s [] = false.
Proof. intros N. destruct (eqs s []) eqn:E; [|reflexivity]. apply eqs_iff in E. contradiction. Qed.
Lemma utf8_nonempty cs : cs <> [] -> utf8 cs <> [].
Proof. destruct cs as [|c cs]; [intros []; reflexivity|]. intros _. unfold utf8. cbn [map concat]. pose proof (encode_nonempty c). destruct (encode c); [contradiction|discriminate]. Qed.
Lemma parse_list level not cs s rest cur stk : writes_class not cs s ->
  parse (Lx level (([cRangeOpen] ++ mark not ++ s ++ [cRangeClose]) ++ rest)) None cur stk = parse (Lx level rest) None (NList not (utf8 cs) :: cur) stk.
Proof.
  intros [N [W [H1 H2]]]. cbn [app]. rewrite <- !app_assoc. cbn [app].
  pose proof (range_rest_list cs s rest N W H2) as R.
  rewrite (item_range level not (s ++ cRangeClose :: rest) rest [TText (utf8 cs); TRangeClose]).
  - assert (U : eqs (utf8 cs) [] = false) by (apply eqs_nonempty, utf8_nonempty, N).
    destruct not; cbn [app parse rchars rlo rhi rnot rstart Z.eqb negb andb]; rewrite U; reflexivity.
  - apply fetchRange_mark; [|exact R]. intros E. specialize (H1 E). destruct (first_rune_text _ _ _ (cRangeClose :: rest) W N) as [r [s1 [Rr [_ _]]]].
    exists r, s1. split; [exact Rr|]. intros ->.
    inversion W as [|c cs' s' Wc Nc NE W'|c cs' s' Wc W']; subst; [contradiction| |].
    + rewrite <- app_assoc, read_rune in Rr by exact Wc. injection Rr as -> _. cbn in H1. discriminate.
    + cbn [app] in Rr. rewrite read_ascii in Rr by (unfold cEscape; lia). discriminate.
Qed.
Lemma decode_writable c : writable c -> decode (encode c) = (c, length (encode c)).
Proof. intros [V _]. rewrite <- (app_nil_r (encode c)) at 1. apply decode_encode, V. Qed.
Lemma parse_range_node level not lo hi rest cur stk : writable lo -> writable hi -> (lo <= hi)%Z -> (not = false -> lo <> cRangeNot) ->
  parse (Lx level (([cRangeOpen] ++ mark not ++ encode lo ++ [cBetween] ++ encode hi ++ [cRangeClose]) ++ rest)) None cur stk
  = parse (Lx level rest) None (NRange not lo hi :: cur) stk.
Proof.
  intros Wl Wh Le NN. cbn [app]. rewrite <- !app_assoc. cbn [app]. rewrite <- !app_assoc. cbn [app].
  pose proof (range_rest_range lo hi rest Wl Wh) as R.
  rewrite (item_range level not _ rest _ (fetchRange_mark not _ _ _ ltac:(intros E; exists lo; eexists; split; [apply read_rune, Wl|apply NN, E]) R)).
  assert (X : forall st, parse ([TLo (encode lo); TBetween; THi (encode hi); TRangeClose] ++ Lx level rest) (Some st) cur stk
              = if eqs (rchars st) [] then parse (Lx level rest) None (NRange (rnot st) lo hi :: cur) stk else PErr).
  { intros st. cbn [app parse]. rewrite (decode_writable lo Wl), (decode_writable hi Wh), !Nat.ltb_irrefl. cbn [rlo rhi rnot rchars].
    rewrite (proj2 (Z.ltb_ge hi lo)) by lia. destruct Wl as [_ [Nl _]]. destruct Wh as [_ [Nh _]].
    rewrite (proj2 (Z.eqb_neq lo 0)) by exact Nl. rewrite (proj2 (Z.eqb_neq hi 0)) by exact Nh. cbn [negb andb].
    destruct (eqs (rchars st) []); reflexivity. }
  transitivity (parse ([TLo (encode lo); TBetween; THi (encode hi); TRangeClose] ++ Lx level rest) (Some {| rnot := not; rlo := 0; rhi := 0; rchars := [] |}) cur stk).
  - destruct not; reflexivity.
  - rewrite X. reflexivity.
Qed.
(** Single tokens. *)
Lemma Lx_any level rest : HasPrefix rest [cAny] = false -> (exists r s1, read rest = Some (r, s1)) -> Lx level (cAny :: rest) = TAny :: Lx level rest.
Proof.
  intros H [r [s1 R]]. rewrite (Lx_item level _ [TAny] level rest); [reflexivity| |discriminate]. unfold fetchItem. rewrite read_ascii by (unfold cAny; lia).
  cbn [Z.eqb cAny cTermsOpen cComma cTermsClose cRangeOpen cSingle Pos.eqb andb]. rewrite R.
  destruct (Z.eqb_spec r cAny) as [->|N]; [|reflexivity].
  exfalso. destruct rest as [|c rest]; [discriminate|]. cbn [HasPrefix cAny] in H. unfold read in R.
  destruct (Z.eqb_spec c 42) as [->|NC]; [cbn in H; discriminate H|].
  pose proof (decode_high c rest) as Hi. destruct (decode (c :: rest)) as [q w] eqn:D. destruct (q =? RuneError)%Z; [discriminate|]. injection R as -> _.
  destruct (Z_lt_ge_dec c 128) as [L|G].
  - unfold decode in D. rewrite (proj2 (Z.ltb_lt c 128) L) in D. injection D as D _; contradiction.
  - specialize (Hi ltac:(lia)). destruct Hi as [Hi _]. unfold cAny in Hi; lia.
Qed.

Lemma Lx_one c level level' rest ts : (0 < c < 128)%Z -> fetchItem level (c :: rest) = Some (ts, level', rest) -> ts <> [TEOF] -> Lx level (c :: rest) = ts ++ Lx level' rest.
Proof. intros _ F N. apply Lx_item; assumption. Qed.
Lemma Lx_super level rest : Lx level (cAny :: cAny :: rest) = TSuper :: Lx level rest.
Proof. rewrite (Lx_item level _ [TSuper] level rest); [reflexivity|reflexivity|discriminate]. Qed.
Lemma Lx_single level rest : Lx level (cSingle :: rest) = TSingle :: Lx level rest.
Proof. rewrite (Lx_item level _ [TSingle] level rest); [reflexivity|reflexivity|discriminate]. Qed.
Lemma Lx_open level rest : Lx level (cTermsOpen :: rest) = TOpen :: Lx (S level) rest.
Proof. rewrite (Lx_item level _ [TOpen] (S level) rest); [reflexivity|reflexivity|discriminate]. Qed.
Lemma Lx_sep level rest : Lx (S level) (cComma :: rest) = TSep :: Lx (S level) rest.
Proof. rewrite (Lx_item (S level) _ [TSep] (S level) rest); [reflexivity|reflexivity|discriminate]. Qed.
Lemma Lx_close level rest : Lx (S level) (cTermsClose :: rest) = TClose :: Lx level rest.
Proof.
  rewrite (Lx_item (S level) _ [TClose] level rest); [reflexivity| |discriminate]. unfold fetchItem. rewrite read_ascii by (unfold cTermsClose; lia).
  cbn [Z.eqb cTermsOpen cComma cTermsClose Pos.eqb andb Nat.ltb Nat.leb Nat.sub]. rewrite Nat.sub_0_r. reflexivity.
Qed.

(** What may follow a sequence: the end of the pattern, or inside alternatives a comma or closing brace. *)
Definition ends (a : bool) (rest : str) : Prop := if a then exists r, rest = cComma :: r \/ rest = cTermsClose :: r else rest = [].
Lemma ends_stops a rest : ends a rest -> stops (special_in a) rest.
Proof.
  unfold ends. destruct a.
  - intros [r [->| ->]]; right; [exists cComma, r|exists cTermsClose, r]; (split; [reflexivity|]; split; [unfold cComma, cTermsClose; lia|]; split; [|discriminate]);
      unfold special_in; apply in_or_app; right; cbn; tauto.
  - intros ->. left. reflexivity.
Qed.
Lemma ends_read a rest : ends a rest -> exists r s1, read rest = Some (r, s1).
Proof. unfold ends. destruct a; [intros [r [->| ->]]|intros ->]; eexists; eexists; reflexivity. Qed.
Lemma ends_any a rest : ends a rest -> HasPrefix rest [cAny] = false.
Proof. unfold ends. destruct a; [intros [r [->| ->]]|intros ->]; reflexivity. Qed.
(** The beginning of what is written for a term. *)
Lemma writes_stops a n s rest : writes a n s -> (forall t, n <> NText t) -> stops (special_in a) (s ++ rest).
Proof.
  intros W N. right. unfold special_in. destruct W; try (exfalso; eapply N; reflexivity); cbn [app]; eexists; eexists; (split; [reflexivity|]);
    (split; [unfold cAny, cSingle, cRangeOpen, cTermsOpen; lia|]; split; [|discriminate]); cbn; tauto.
Qed.
Lemma writes_any a n s rest : writes a n s -> n <> NAny -> n <> NSuper -> HasPrefix (s ++ rest) [cAny] = false.
Proof.
  intros W N1 N2. destruct W; try contradiction; try reflexivity.
  match goal with H : writes_text _ _ _ |- _ => destruct H as [|c cs s Wc Nc NE W|c cs s Wc W] end; [contradiction| |reflexivity].
  destruct (HasPrefix _ _) eqn:E; [|reflexivity]. apply HasPrefix_iff in E. destruct E as [r E]. rewrite <- app_assoc in E.
  pose proof (read_rune c (s ++ rest) Wc) as R. rewrite E in R. cbn [app] in R. rewrite read_ascii in R by (unfold cAny; lia). injection R as <- _.
  exfalso. apply Nc. unfold special_in. cbn. tauto.
Qed.
Lemma writes_read a n s rest : writes a n s -> exists r s1, read (s ++ rest) = Some (r, s1).
Proof.
  intros W. destruct W; try (eexists; eexists; reflexivity).
  match goal with H : writes_text _ _ _ |- _ => destruct (first_rune_text _ _ _ rest H ltac:(assumption)) as [r [s1 [R _]]] end. eauto.
Qed.
Scheme writes_mut := Induction for writes Sort Prop
  with writes_seq_mut := Induction for writes_seq Sort Prop
  with writes_alts_mut := Induction for writes_alts Sort Prop.
Lemma parse_writes_seq : forall a ns s, writes_seq a ns s -> forall level rest cur stk, (0 <? level) = a -> ends a rest ->
  parse (Lx level (s ++ rest)) None cur stk = parse (Lx level rest) None (rev ns ++ cur) stk.
Proof.
  apply (writes_seq_mut
    (fun a n s (_ : writes a n s) => forall level rest cur stk, (0 <? level) = a ->
        (forall t, n = NText t -> stops (special_in a) rest) -> (n = NAny -> HasPrefix rest [cAny] = false /\ exists r s1, read rest = Some (r, s1)) ->
        parse (Lx level (s ++ rest)) None cur stk = parse (Lx level rest) None (n :: cur) stk)
    (fun a ns s (_ : writes_seq a ns s) => forall level rest cur stk, (0 <? level) = a -> ends a rest ->
        parse (Lx level (s ++ rest)) None cur stk = parse (Lx level rest) None (rev ns ++ cur) stk)
    (fun ns s (_ : writes_alts ns s) => forall level rest alts up stk,
        parse (Lx (S level) (s ++ cTermsClose :: rest)) None [] ((alts, up) :: stk) = parse (Lx level rest) None (NAnyOf (rev alts ++ ns) :: up) stk)).
  - intros a cs s N W level rest cur stk A St _. rewrite (item_text a level cs s rest A W N (St _ eq_refl)). reflexivity.
  - intros a level rest cur stk A _ H. destruct (H eq_refl) as [H1 H2]. cbn [app]. rewrite Lx_any by assumption. reflexivity.
  - intros a level rest cur stk A _ _. cbn [app]. rewrite Lx_super. reflexivity.
  - intros a level rest cur stk A _ _. cbn [app]. rewrite Lx_single. reflexivity.
  - intros a not cs s W level rest cur stk A _ _. apply parse_list, W.
  - intros a not lo hi Wl Wh Le NN level rest cur stk A _ _. apply parse_range_node; assumption.
  - intros a ns s W IH level rest cur stk A _ _. cbn [app]. rewrite <- app_assoc. cbn [app]. rewrite Lx_open. cbn [parse]. rewrite IH. reflexivity.
  - intros a level rest cur stk A E. reflexivity.
  - intros a n ns s t Wn IHn Ap Wt IHt level rest cur stk A E. rewrite <- app_assoc. rewrite IHn; [| exact A| |].
    + rewrite IHt by assumption. cbn [rev]. rewrite <- app_assoc. reflexivity.
    + intros x ->. inversion Wt as [|a' n' ns' s' t' Wn' Ap' Wt']; subst.
      * apply ends_stops, E.
      * rewrite <- app_assoc. eapply writes_stops; [exact Wn'|]. intros y ->. exact Ap.
    + intros ->. inversion Wt as [|a' n' ns' s' t' Wn' Ap' Wt']; subst.
      * split; [eapply ends_any, E|eapply ends_read, E].
      * rewrite <- app_assoc. split; [eapply writes_any; [exact Wn'| |]; intros ->; exact Ap|eapply writes_read, Wn'].
  - intros ns s W IH level rest alts up stk. rewrite IH; [|reflexivity|exists rest; auto]. rewrite app_nil_r, Lx_close. cbn [parse rev].
    rewrite rev_involutive. reflexivity.
  - intros ns tl s t W IH Wt IHt level rest alts up stk. rewrite <- !app_assoc. cbn [app]. rewrite IH; [|reflexivity|eexists; left; reflexivity].
    rewrite app_nil_r, Lx_sep. cbn [parse rev]. rewrite rev_involutive, IHt. cbn [rev]. rewrite <- app_assoc. reflexivity.
Qed.
Lemma parse_written t s : writes_pattern t s -> Parse s = POk t.
Proof.
  intros [ns [-> W]]. unfold Parse, Lex. change (lex (S (length s)) 0 s) with (Lx 0 s). rewrite <- (app_nil_r s).
  rewrite (parse_writes_seq false ns s W 0 [] [] [] eq_refl eq_refl). rewrite app_nil_r. cbn. rewrite rev_involutive. reflexivity.
Qed.
