(** * The lexer with its state (GlobLexer.v) does what the function of GlobLex.v says, and which error text it leaves. *)
From Coq Require Import String ZArith Arith List Bool Lia.
From Verif Require Import Utf8 GoStr GlobLex GlobParse GlobLexer.
Import ListNotations.

(** ** Where the lexer stands *)
(** The rest of the pattern from the position; a rune pushed back is the first one of it. *)
Definition here (l : lexer) (s : str) : Prop :=
  (0 <= pos l <= Z.of_nat (length (data l)))%Z /\ s = skipn (Z.to_nat (pos l)) (data l) /\
  (hasRune l = true -> exists s', read s = Some (lastRune l, s') /\ lastRuneSize l = Z.of_nat (length s - length s')).
(** Unread would bring it back to [s]. *)
Definition back (l : lexer) (s : str) : Prop := hasRune l = false /\ here (seek l (- lastRuneSize l)%Z true) s.
Definition keeps (l l' : lexer) : Prop := err l' = err l /\ tokens l' = tokens l /\ termsLevel l' = termsLevel l.
Lemma here_errorf l m s : here (errorf l m) s <-> here l s. Proof. reflexivity. Qed.
Lemma here_push l t s : here (push l t) s <-> here l s. Proof. reflexivity. Qed.
Lemma here_terms l d s : here (terms l d) s <-> here l s. Proof. reflexivity. Qed.
Lemma back_errorf l m s : back (errorf l m) s <-> back l s. Proof. reflexivity. Qed.
Lemma skip_twice {A} n : forall m (s : list A), skipn n (skipn m s) = skipn (m + n) s.
Proof. induction m as [|m IH]; intros s; [reflexivity|]. destruct s; [rewrite !skipn_nil; reflexivity|]. apply IH. Qed.
Lemma read_skipn s r s' : read s = Some (r, s') -> s' = skipn (length s - length s') s /\ length s' <= length s.
Proof.
  intros H. pose proof (read_le _ _ _ H) as Le. unfold read in H. destruct s as [|b s]; [injection H as <- <-; auto|].
  destruct (decode (b :: s)) as [q w]. destruct (q =? RuneError)%Z; [discriminate|]. injection H as <- <-. split; [|exact Le].
  rewrite skipn_length. destruct (Nat.le_gt_cases w (length (b :: s))) as [L|L].
  - replace (length (b :: s) - (length (b :: s) - w)) with w by lia. reflexivity.
  - rewrite !skipn_all2; [reflexivity|lia|lia].
Qed.
Lemma here_forward l s s' r : here l s -> read s = Some (r, s') ->
  (0 <= pos l + Z.of_nat (length s - length s') <= Z.of_nat (length (data l)))%Z /\ s' = skipn (Z.to_nat (pos l + Z.of_nat (length s - length s'))) (data l).
Proof.
  intros [B [E _]] R. destruct (read_skipn _ _ _ R) as [S1 L1].
  assert (Ls : length s = length (data l) - Z.to_nat (pos l)) by (rewrite E; apply skipn_length).
  split; [lia|]. rewrite S1 at 1. rewrite E at 2. rewrite skip_twice. f_equal. lia.
Qed.
Lemma peek_ok l s n s' : here l s -> read s = Some (n, s') -> peek l = Done (n, Z.of_nat (length s - length s')) l.
Proof.
  intros [B [E _]] R. unfold peek. assert (Ls : length s = length (data l) - Z.to_nat (pos l)) by (rewrite E; apply skipn_length).
  destruct (Z.eqb_spec (pos l) (Z.of_nat (length (data l)))) as [P|P].
  - assert (S0 : s = []) by (apply length_zero_iff_nil; lia). rewrite S0 in *. cbn in R. injection R as <- <-. reflexivity.
  - destruct (Z.ltb_spec (pos l) 0); [lia|]. destruct (Z.gtb_spec (pos l) (Z.of_nat (length (data l)))); [lia|]. cbn [orb]. rewrite <- E.
    destruct (read_skipn _ _ _ R) as [_ Le]. unfold read in R. destruct s as [|b s]; [cbn in Ls; lia|]. pose proof (decode_width (b :: s) ltac:(discriminate)) as W.
    destruct (decode (b :: s)) as [q w] eqn:D. destruct (q =? RuneError)%Z; [discriminate|]. injection R as <- <-. f_equal. f_equal. rewrite skipn_length. cbn [snd] in W. lia.
Qed.
Lemma peek_bad l s : here l s -> read s = None -> peek l = Done (0, 0)%Z (errorf l m_rune).
Proof.
  intros [B [E _]] R. unfold peek. assert (Ls : length s = length (data l) - Z.to_nat (pos l)) by (rewrite E; apply skipn_length).
  destruct (Z.eqb_spec (pos l) (Z.of_nat (length (data l)))) as [P|P].
  - assert (S0 : s = []) by (apply length_zero_iff_nil; lia). rewrite S0 in *. discriminate R.
  - destruct (Z.ltb_spec (pos l) 0); [lia|]. destruct (Z.gtb_spec (pos l) (Z.of_nat (length (data l)))); [lia|]. cbn [orb]. rewrite <- E.
    unfold read in R. destruct s as [|b s]; [discriminate|]. destruct (decode (b :: s)) as [q w]. destruct (q =? RuneError)%Z; [reflexivity|discriminate].
Qed.
Lemma read_ok l s r s' : here l s -> read s = Some (r, s') -> exists l', read_ l = Done r l' /\ here l' s' /\ back l' s /\ keeps l l'.
Proof.
  intros H R. destruct (here_forward _ _ _ _ H R) as [B' E']. assert (H0 := H). destruct H as [B [E P]]. unfold read_. destruct (hasRune l) eqn:Hr.
  - destruct (P eq_refl) as [s2 [R2 W]]. rewrite R in R2. injection R2 as R2 <-. rewrite <- R2. eexists. split; [reflexivity|]. split; [|split].
    + unfold here, seek. cbn [pos data hasRune]. rewrite W. split; [exact B'|]. split; [exact E'|discriminate].
    + split; [reflexivity|]. unfold here, seek. cbn [pos data hasRune lastRune lastRuneSize]. rewrite W. replace (pos l + Z.of_nat (length s - length s') + - Z.of_nat (length s - length s'))%Z with (pos l) by lia.
      split; [exact B|]. split; [exact E|]. intros _. exists s'. rewrite <- R2. auto.
    + repeat split.
  - rewrite (peek_ok _ _ _ _ H0 R). cbn [bind fst snd]. eexists. split; [reflexivity|]. split; [|split].
    + unfold here. cbn [pos data hasRune]. split; [exact B'|]. split; [exact E'|congruence].
    + split; [exact Hr|]. unfold here, seek. cbn [pos data hasRune lastRune lastRuneSize]. replace (pos l + Z.of_nat (length s - length s') + - Z.of_nat (length s - length s'))%Z with (pos l) by lia.
      split; [exact B|]. split; [exact E|]. intros _. exists s'. auto.
    + repeat split.
Qed.
Lemma read_bad l s : here l s -> read s = None ->
  exists l', read_ l = Done 0%Z l' /\ here l' s /\ hasRune l' = false /\ err l' = Some m_rune /\ tokens l' = tokens l /\ termsLevel l' = termsLevel l.
Proof.
  intros H R. assert (H0 := H). destruct H as [B [E P]]. unfold read_. destruct (hasRune l) eqn:Hr.
  - destruct (P eq_refl) as [s2 [R2 _]]. congruence.
  - rewrite (peek_bad _ _ H0 R). cbn [bind fst snd errorf pos data err tokens termsLevel hasRune]. eexists. split; [reflexivity|].
    unfold here. cbn [pos data hasRune err tokens termsLevel]. replace (pos l + 0)%Z with (pos l) by lia. repeat split; try assumption; try congruence; lia.
Qed.
Lemma unread_back l s : back l s -> here (unread l) s /\ keeps l (unread l).
Proof. intros [F H]. unfold unread. rewrite F. split; [exact H|repeat split]. Qed.

(** ** Tokens with their texts *)
Definition tok (t : Tok) : Token :=
  match t with
  | TEOF => T KEOF [] | TError => T KError [] | TText r => T KText r | TAny => T KAny [cAny] | TSuper => T KSuper [cAny; cAny] | TSingle => T KSingle [cSingle]
  | TNot => T KNot [cRangeNot] | TSep => T KSeparator [cComma] | TRangeOpen => T KRangeOpen [cRangeOpen] | TRangeClose => T KRangeClose [cRangeClose]
  | TLo r => T KRangeLo r | THi r => T KRangeHi r | TBetween => T KRangeBetween [cBetween] | TOpen => T KTermsOpen [cTermsOpen] | TClose => T KTermsClose [cTermsClose]
  end.
(** The lexer went on to [s'] and queued [ts]. *)
Definition went (l l' : lexer) (s' : str) (ts : list Tok) : Prop :=
  here l' s' /\ err l' = err l /\ tokens l' = tokens l ++ map tok ts /\ termsLevel l' = termsLevel l.
Lemma fetchText_ok br fuel : forall esc s acc l d s', here l s -> length s < fuel -> fetchText fuel br esc s acc = Some (d, s') ->
  exists l', fetchText_ fuel br esc acc l = Done tt l' /\ went l l' s' (text_tok d).
Proof.
  induction fuel as [|f IH]; intros esc s acc l d s' H L E; [lia|]. cbn [fetchText] in E. cbn [fetchText_].
  assert (Fin : forall l1 s1, here l1 s1 -> keeps l l1 -> exists l',
    Done tt (match acc with [] => l1 | _ => push l1 (T KText (utf8 (rev acc))) end) = Done tt l' /\ went l l' s1 (text_tok (rev acc))).
  { intros l1 s1 H1 [K1 [K2 K3]]. eexists. split; [reflexivity|]. unfold went, text_tok. destruct acc as [|a acc].
    - cbn. rewrite app_nil_r. auto.
    - cbn [push err tokens termsLevel]. rewrite here_push. destruct (rev (a :: acc)) eqn:Rv; [apply (f_equal (@length Z)) in Rv; rewrite rev_length in Rv; discriminate|].
      cbn [map tok]. rewrite K2. auto. }
  destruct (read s) as [[r s1]|] eqn:R; [|discriminate]. destruct (read_ok _ _ _ _ H R) as [l1 [-> [H1 [B1 K]]]]. cbn [bind].
  assert (Lt : r <> 0%Z -> length s1 < length s) by (intros N; exact (read_nonzero _ _ _ R N)).
  destruct (Z.eqb_spec r 0) as [Z|Z]; [injection E as <- <-; apply Fin; assumption|].
  assert (Go : forall esc' acc', fetchText f br esc' s1 acc' = Some (d, s') -> exists l', fetchText_ f br esc' acc' l1 = Done tt l' /\ went l l' s' (text_tok d)).
  { intros esc' acc' E'. destruct (IH _ _ _ l1 _ _ H1 ltac:(lia) E') as [l' [-> [W1 [W2 [W3 W4]]]]]. exists l'. destruct K as [K1 [K2 K3]]. split; [reflexivity|].
    unfold went. rewrite W2, W3, W4, K1, K2, K3. auto. }
  destruct (negb esc && (r =? cEscape)%Z); [apply Go, E|]. destruct (negb esc && existsb (Z.eqb r) br); [|apply Go, E].
  injection E as <- <-. destruct (unread_back _ _ B1) as [Hb Kb]. apply Fin; [exact Hb|]. destruct K as [? [? ?]], Kb as [? [? ?]]. unfold keeps. repeat split; congruence.
Qed.
Lemma fetchText_bad br fuel : forall esc s acc l, here l s -> length s < fuel -> fetchText fuel br esc s acc = None ->
  exists l' t, fetchText_ fuel br esc acc l = Done tt l' /\ here l' t /\ read t = None /\ err l' = Some m_rune /\ termsLevel l' = termsLevel l.
Proof.
  induction fuel as [|f IH]; intros esc s acc l H L E; [lia|]. cbn [fetchText] in E. cbn [fetchText_].
  destruct (read s) as [[r s1]|] eqn:R.
  - destruct (read_ok _ _ _ _ H R) as [l1 [-> [H1 [B1 [K1 [K2 K3]]]]]]. cbn [bind].
    assert (Lt : r <> 0%Z -> length s1 < length s) by (intros N; exact (read_nonzero _ _ _ R N)).
    destruct (Z.eqb_spec r 0) as [Z|Z]; [discriminate|].
    assert (Go : forall esc' acc', fetchText f br esc' s1 acc' = None -> exists l' t, fetchText_ f br esc' acc' l1 = Done tt l' /\ here l' t /\ read t = None /\ err l' = Some m_rune /\ termsLevel l' = termsLevel l).
    { intros esc' acc' E'. destruct (IH _ _ _ l1 H1 ltac:(lia) E') as [l' [t [-> [W1 [W2 [W3 W4]]]]]]. exists l', t. rewrite W4, K3. auto. }
    destruct (negb esc && (r =? cEscape)%Z); [apply Go, E|]. destruct (negb esc && existsb (Z.eqb r) br); [discriminate|apply Go, E].
  - destruct (read_bad _ _ H R) as [l1 [-> [H1 [F [Er [Tk Lv]]]]]]. cbn [bind]. rewrite Z.eqb_refl. eexists. exists s. split; [reflexivity|].
    destruct acc; cbn [push err termsLevel]; [auto|]. rewrite here_push. auto.
Qed.
Lemma text_ok big br s l d s' : here l s -> length s < big -> text br s = Some (d, s') ->
  exists l', fetchText_ big br false [] l = Done tt l' /\ went l l' s' (text_tok d).
Proof. intros H L E. apply (fetchText_ok br big false s [] l d s' H L). rewrite text_fuel; assumption. Qed.
Lemma text_bad big br s l : here l s -> length s < big -> text br s = None ->
  exists l' t, fetchText_ big br false [] l = Done tt l' /\ here l' t /\ read t = None /\ err l' = Some m_rune /\ termsLevel l' = termsLevel l.
Proof. intros H L E. apply (fetchText_bad br big false s [] l H L). rewrite text_fuel; assumption. Qed.

(** ** The error fetchRange leaves *)
Definition close_msg (s : str) : str := match read s with Some (c, _) => if (c =? 0)%Z then m_end else m_close | None => m_end end.
Definition rest_msg (s : str) : str :=
  match read s with
  | None => m_end
  | Some (r, s1) =>
      if (r =? 0)%Z then m_end
      else match read s1 with
           | None => if (r =? cRangeClose)%Z then m_rune else m_end
           | Some (n, s2) =>
               if (n =? cBetween)%Z then match read s2 with Some (hi, s3) => if (hi =? 0)%Z then m_end else close_msg s3 | None => m_end end
               else match text [cRangeClose] s with Some (_, s3) => close_msg s3 | None => m_end end
           end
  end.
Definition range_msg (s : str) : str := match read s with Some (r, s1) => if (r =? cRangeNot)%Z then rest_msg s1 else rest_msg s | None => m_end end.
Definition item_msg (s : str) : str := match read s with Some (r, s1) => if (r =? cRangeOpen)%Z then range_msg s1 else m_rune | None => m_rune end.

(** The last step of fetchRange: the closing bracket. *)
Lemma close_ok f big hi sn l s c s' : here l s -> read s = Some (c, s') -> c = cRangeClose ->
  exists l', fetchRange_ (S f) big hi true sn l = Done tt l' /\ went l l' s' [TRangeClose].
Proof.
  intros H R ->. destruct (read_ok _ _ _ _ H R) as [l1 [E [H1 [B1 [K1 [K2 K3]]]]]]. cbn [fetchRange_]. rewrite E. cbn [bind]. cbv [cRangeClose Z.eqb Pos.eqb negb].
  eexists. split; [reflexivity|]. unfold went. rewrite here_push. cbn [push err tokens termsLevel map tok]. rewrite K2. auto.
Qed.
Lemma close_bad f big hi sn l s : here l s -> (forall c s', read s = Some (c, s') -> c <> cRangeClose) ->
  exists l', fetchRange_ (S f) big hi true sn l = Done tt l' /\ err l' = Some (close_msg s).
Proof.
  intros H N. cbn [fetchRange_]. unfold close_msg. destruct (read s) as [[c s']|] eqn:R.
  - destruct (read_ok _ _ _ _ H R) as [l1 [E [H1 _]]]. rewrite E. cbn [bind]. destruct (c =? 0)%Z; [eexists; split; reflexivity|].
    destruct (Z.eqb_spec c cRangeClose) as [Q|Q]; [elim (N _ _ eq_refl Q)|]. cbn [negb]. eexists; split; reflexivity.
  - destruct (read_bad _ _ H R) as [l1 [E _]]. rewrite E. cbn [bind]. rewrite Z.eqb_refl. eexists; split; reflexivity.
Qed.
Lemma went_trans l l1 l2 s1 s2 a b : went l l1 s1 a -> went l1 l2 s2 b -> went l l2 s2 (a ++ b).
Proof. intros [_ [E1 [T1 L1]]] [H [E2 [T2 L2]]]. unfold went. rewrite map_app, app_assoc, <- T1. split; [exact H|]; repeat split; congruence. Qed.
Lemma went_keeps l l1 l2 s2 b : keeps l l1 -> went l1 l2 s2 b -> went l l2 s2 b.
Proof. intros [E1 [T1 L1]] [H [E2 [T2 L2]]]. unfold went. split; [exact H|]; repeat split; congruence. Qed.
Lemma went_push l l1 s1 a t : went l l1 s1 a -> went l (push l1 (tok t)) s1 (a ++ [t]).
Proof. intros [H [E1 [T1 L1]]]. unfold went. rewrite here_push. cbn [push err tokens termsLevel]. rewrite map_app, app_assoc, <- T1. auto. Qed.
Lemma went_read l l1 s1 : here l1 s1 -> keeps l l1 -> went l l1 s1 [].
Proof. intros H [E [T0 L]]. unfold went. cbn. rewrite app_nil_r. auto. Qed.
Lemma seek_peeked l s n s' : here l s -> hasRune l = false -> read s = Some (n, s') ->
  here (seek l (Z.of_nat (length s - length s')) false) s' /\ keeps l (seek l (Z.of_nat (length s - length s')) false).
Proof. intros H F R. destruct (here_forward _ _ _ _ H R) as [B E]. split; [|repeat split]. unfold here, seek. cbn [pos data hasRune]. split; [exact B|]. split; [exact E|discriminate]. Qed.
Lemma not_bang sn r : (sn = true \/ r <> cRangeNot) -> negb sn && (r =? cRangeNot)%Z = false.
Proof. intros [->|N]; [reflexivity|]. apply Z.eqb_neq in N. rewrite N. apply andb_false_r. Qed.
Lemma lo_hi_step f big sn l s r s1 s2 : here l s -> read s = Some (r, s1) -> r <> 0%Z -> (sn = true \/ r <> cRangeNot) -> read s1 = Some (cBetween, s2) ->
  exists l', fetchRange_ (S f) big false false sn l = fetchRange_ f big true false sn l' /\ went l l' s2 [TLo (encode r); TBetween].
Proof.
  intros H R Nz Nb R1. destruct (read_ok _ _ _ _ H R) as [l1 [E [H1 [B1 K1]]]]. cbn [fetchRange_]. rewrite E. cbn [bind].
  apply Z.eqb_neq in Nz. rewrite Nz, (not_bang _ _ Nb), (peek_ok _ _ _ _ H1 R1). cbn [bind fst snd]. rewrite Z.eqb_refl. destruct B1 as [F1 _]. rewrite F1.
  eexists. split; [reflexivity|]. destruct (seek_peeked _ _ _ _ H1 F1 R1) as [H2 K2].
  change [TLo (encode r); TBetween] with (([] ++ [TLo (encode r)]) ++ [TBetween]). change (encode cBetween) with [cBetween].
  change (T KRangeLo (encode r)) with (tok (TLo (encode r))). change (T KRangeBetween [cBetween]) with (tok TBetween).
  apply went_push, went_push. apply went_keeps with l1; [exact K1|]. apply went_read; assumption.
Qed.
Lemma hi_step f big sn l s hi s1 : here l s -> read s = Some (hi, s1) -> hi <> 0%Z ->
  exists l', fetchRange_ (S f) big true false sn l = fetchRange_ f big true true sn l' /\ went l l' s1 [THi (encode hi)].
Proof.
  intros H R Nz. destruct (read_ok _ _ _ _ H R) as [l1 [E [H1 [B1 K1]]]]. cbn [fetchRange_]. rewrite E. cbn [bind]. apply Z.eqb_neq in Nz. rewrite Nz.
  eexists. split; [reflexivity|]. change [THi (encode hi)] with ([] ++ [THi (encode hi)]). change (T KRangeHi (encode hi)) with (tok (THi (encode hi))). apply went_push, went_read; assumption.
Qed.
(** A class that is not written as a range: the text up to the bracket. *)
Lemma text_step f big sn l s r s1 n s2 : here l s -> read s = Some (r, s1) -> r <> 0%Z -> (sn = true \/ r <> cRangeNot) -> read s1 = Some (n, s2) -> n <> cBetween ->
  exists l2, here l2 s /\ keeps l l2 /\
    fetchRange_ (S f) big false false sn l = bind (fetchText_ big [cRangeClose] false [] l2) (fun _ l3 => fetchRange_ f big false true sn l3).
Proof.
  intros H R Nz Nb R1 Nn. destruct (read_ok _ _ _ _ H R) as [l1 [E [H1 [B1 K1]]]]. cbn [fetchRange_]. rewrite E. cbn [bind].
  apply Z.eqb_neq in Nz, Nn. rewrite Nz, (not_bang _ _ Nb), (peek_ok _ _ _ _ H1 R1). cbn [bind fst snd]. rewrite Nn.
  destruct (unread_back _ _ B1) as [H2 K2]. exists (unread l1). split; [exact H2|]. split; [|reflexivity]. destruct K1 as [? [? ?]], K2 as [? [? ?]]. unfold keeps. repeat split; congruence.
Qed.
Lemma rest_ok f big sn l s ts s' : here l s -> length s < big -> (forall r s1, read s = Some (r, s1) -> sn = true \/ r <> cRangeNot) -> range_rest s = Some (ts, s') ->
  exists l', fetchRange_ (S (S (S f))) big false false sn l = Done tt l' /\ went l l' s' ts.
Proof.
  intros H L Nb E. unfold range_rest in E. destruct (read s) as [[r s1]|] eqn:R; [|discriminate]. specialize (Nb _ _ eq_refl).
  destruct (Z.eqb_spec r 0) as [Z|Z]; [discriminate|]. destruct (read s1) as [[n s2]|] eqn:R1; [|discriminate]. destruct (Z.eqb_spec n cBetween) as [->|Nn].
  - destruct (read s2) as [[hi s3]|] eqn:R2; [|discriminate]. destruct (Z.eqb_spec hi 0) as [Zh|Zh]; [discriminate|].
    destruct (read s3) as [[c s4]|] eqn:R3; [|discriminate]. destruct (Z.eqb_spec c cRangeClose) as [C|C]; [|discriminate]. injection E as <- <-.
    destruct (lo_hi_step (S (S f)) big sn l s r s1 s2 H R Z Nb R1) as [l2 [-> W2]]. destruct (hi_step (S f) big sn l2 s2 hi s3 (proj1 W2) R2 Zh) as [l3 [-> W3]].
    destruct (close_ok f big true sn l3 s3 c s4 (proj1 W3) R3 C) as [l4 [-> W4]]. exists l4. split; [reflexivity|].
    exact (went_trans _ _ _ _ _ _ _ (went_trans _ _ _ _ _ _ _ W2 W3) W4).
  - destruct (text [cRangeClose] s) as [[d s3]|] eqn:Tx; [|discriminate]. destruct (read s3) as [[c s4]|] eqn:R3; [|discriminate].
    destruct (Z.eqb_spec c cRangeClose) as [C|C]; [|discriminate]. injection E as <- <-.
    destruct (text_step (S (S f)) big sn l s r s1 n s2 H R Z Nb R1 Nn) as [l2 [H2 [K2 ->]]]. destruct (text_ok big _ _ _ _ _ H2 L Tx) as [l3 [-> W3]]. cbn [bind].
    destruct (close_ok (S f) big false sn l3 s3 c s4 (proj1 W3) R3 C) as [l4 [-> W4]]. exists l4. split; [reflexivity|]. apply went_keeps with l2; [exact K2|]. exact (went_trans _ _ _ _ _ _ _ W3 W4).
Qed.
Lemma end_stop f big wh wc sn l s : here l s -> (read s = None \/ exists s', read s = Some (0%Z, s')) ->
  exists l', fetchRange_ (S f) big wh wc sn l = Done tt l' /\ err l' = Some m_end.
Proof.
  intros H [R|[s' R]]; cbn [fetchRange_].
  - destruct (read_bad _ _ H R) as [l1 [-> _]]. cbn [bind]. rewrite Z.eqb_refl. eexists. split; reflexivity.
  - destruct (read_ok _ _ _ _ H R) as [l1 [-> _]]. cbn [bind]. rewrite Z.eqb_refl. eexists. split; reflexivity.
Qed.
Lemma bad_step f big sn l s r s1 : here l s -> read s = Some (r, s1) -> r <> 0%Z -> (sn = true \/ r <> cRangeNot) -> read s1 = None ->
  exists l2, here l2 s /\ err l2 = Some m_rune /\
    fetchRange_ (S f) big false false sn l = bind (fetchText_ big [cRangeClose] false [] l2) (fun _ l3 => fetchRange_ f big false true sn l3).
Proof.
  intros H R Nz Nb R1. destruct (read_ok _ _ _ _ H R) as [l1 [E [H1 [B1 K1]]]]. cbn [fetchRange_]. rewrite E. cbn [bind].
  apply Z.eqb_neq in Nz. rewrite Nz, (not_bang _ _ Nb), (peek_bad _ _ H1 R1). cbn [bind fst snd]. change (0 =? cBetween)%Z with false. cbv iota.
  destruct (unread_back (errorf l1 m_rune) s B1) as [H2 [K2 _]]. exists (unread (errorf l1 m_rune)). split; [exact H2|]. split; [rewrite K2|]; reflexivity.
Qed.
Lemma rest_bad f big sn l s : here l s -> length s < big -> (forall r s1, read s = Some (r, s1) -> sn = true \/ r <> cRangeNot) -> range_rest s = None ->
  exists l', fetchRange_ (S (S (S f))) big false false sn l = Done tt l' /\ err l' = Some (rest_msg s).
Proof.
  intros H L Nb E. unfold range_rest in E. unfold rest_msg. destruct (read s) as [[r s1]|] eqn:R; [|apply end_stop with s; auto]. specialize (Nb _ _ eq_refl).
  destruct (Z.eqb_spec r 0) as [->|Z]; [apply end_stop with s; eauto|]. destruct (read s1) as [[n s2]|] eqn:R1.
  - destruct (Z.eqb_spec n cBetween) as [->|Nn].
    + destruct (lo_hi_step (S (S f)) big sn l s r s1 s2 H R Z Nb R1) as [l2 [-> W2]]. destruct (read s2) as [[hi s3]|] eqn:R2; [|apply end_stop with s2; [apply W2|auto]].
      destruct (Z.eqb_spec hi 0) as [->|Zh]; [apply end_stop with s2; [apply W2|eauto]|]. destruct (hi_step (S f) big sn l2 s2 hi s3 (proj1 W2) R2 Zh) as [l3 [-> W3]].
      apply close_bad; [apply W3|]. intros c s4 Rc. rewrite Rc in E. destruct (Z.eqb_spec c cRangeClose); [discriminate|assumption].
    + destruct (text_step (S (S f)) big sn l s r s1 n s2 H R Z Nb R1 Nn) as [l2 [H2 [K2 ->]]]. destruct (text [cRangeClose] s) as [[d s3]|] eqn:Tx.
      * destruct (text_ok big _ _ _ _ _ H2 L Tx) as [l3 [-> W3]]. cbn [bind].
        apply close_bad; [apply W3|]. intros c s4 Rc. rewrite Rc in E. destruct (Z.eqb_spec c cRangeClose); [discriminate|assumption].
      * destruct (text_bad big _ _ _ H2 L Tx) as [l3 [t [-> [H3 [Rt _]]]]]. cbn [bind]. apply end_stop with t; auto.
  - (* the rune after the first cannot be read *)
    clear E. assert (Nz := Z). apply Z.eqb_neq in Nz. destruct (bad_step (S (S f)) big sn l s r s1 H R Z Nb R1) as [l2 [H2 [K2 ->]]].
    assert (Sh : length s1 < length s) by exact (read_nonzero _ _ _ R Z).
    destruct (text [cRangeClose] s) as [[d s3]|] eqn:Tx.
    + assert (Tx' := Tx). unfold text in Tx. cbn [fetchText] in Tx. rewrite R, Nz in Tx. cbn [negb andb existsb] in Tx.
      assert (No : forall e acc, fetchText (length s) [cRangeClose] e s1 acc = None) by (intros; destruct (length s); [lia|]; cbn [fetchText]; rewrite R1; reflexivity).
      destruct (r =? cEscape)%Z eqn:Es; [rewrite No in Tx; discriminate|]. rewrite orb_false_r in Tx. destruct (Z.eqb_spec r cRangeClose) as [->|C]; [|rewrite No in Tx; discriminate].
      injection Tx as <- <-. destruct (text_ok big _ _ _ _ _ H2 L Tx') as [l3 [-> W3]]. cbn [bind].
      destruct (close_ok (S f) big false sn l3 s cRangeClose s1 (proj1 W3) R eq_refl) as [l4 [-> W4]]. exists l4. split; [reflexivity|].
      destruct W3 as [_ [W3 _]], W4 as [_ [W4 _]]. rewrite W4, W3, K2. reflexivity.
    + assert (C : r <> cRangeClose). { intros ->. unfold text in Tx. cbn [fetchText] in Tx. rewrite R in Tx. cbv [cRangeClose cEscape Z.eqb Pos.eqb negb andb existsb orb] in Tx. discriminate. }
      apply Z.eqb_neq in C. rewrite C. destruct (text_bad big _ _ _ H2 L Tx) as [l3 [t [-> [H3 [Rt _]]]]]. cbn [bind]. apply (end_stop (S f) big false true sn l3 t H3). auto.
Qed.
Lemma range_ok f big l s ts s' : here l s -> length s < big -> fetchRange s = Some (ts, s') ->
  exists l', fetchRange_ (S (S (S (S f)))) big false false false l = Done tt l' /\ went l l' s' ts.
Proof.
  intros H L E. unfold fetchRange in E. destruct (read s) as [[r s1]|] eqn:R; [|discriminate]. destruct (Z.eqb_spec r cRangeNot) as [->|N].
  - destruct (range_rest s1) as [[ts1 s2]|] eqn:E1; [|discriminate]. injection E as <- <-. destruct (read_ok _ _ _ _ H R) as [l1 [Er [H1 [B1 K1]]]].
    assert (St : fetchRange_ (S (S (S (S f)))) big false false false l = fetchRange_ (S (S (S f))) big false false true (push l1 (tok TNot))).
    { remember (S (S (S f))) as g. cbn [fetchRange_]. rewrite Er. reflexivity. }
    rewrite St. pose proof (read_le _ _ _ R). destruct (rest_ok f big true (push l1 (tok TNot)) s1 ts1 s2 H1 ltac:(lia) ltac:(auto) E1) as [l' [-> W]]. exists l'. split; [reflexivity|].
    change (TNot :: ts1) with (([] ++ [TNot]) ++ ts1). apply went_trans with (push l1 (tok TNot)) s1; [apply went_push, went_read; assumption|exact W].
  - apply rest_ok with s; [assumption|assumption| |assumption]. intros r' s1' R'. rewrite R in R'. injection R' as <- <-. auto.
Qed.
Lemma range_bad f big l s : here l s -> length s < big -> fetchRange s = None ->
  exists l', fetchRange_ (S (S (S (S f)))) big false false false l = Done tt l' /\ err l' = Some (range_msg s).
Proof.
  intros H L E. unfold fetchRange in E. unfold range_msg. destruct (read s) as [[r s1]|] eqn:R.
  - destruct (Z.eqb_spec r cRangeNot) as [->|N].
    + destruct (range_rest s1) as [[ts1 s2]|] eqn:E1; [discriminate|]. destruct (read_ok _ _ _ _ H R) as [l1 [Er [H1 [B1 K1]]]].
      assert (St : fetchRange_ (S (S (S (S f)))) big false false false l = fetchRange_ (S (S (S f))) big false false true (push l1 (tok TNot))).
      { remember (S (S (S f))) as g. cbn [fetchRange_]. rewrite Er. reflexivity. }
      rewrite St. pose proof (read_le _ _ _ R). apply rest_bad; [exact H1|lia|auto|exact E1].
    + apply rest_bad; [assumption|assumption| |assumption]. intros r' s1' R'. rewrite R in R'. injection R' as <- <-. auto.
  - apply end_stop with s; auto.
Qed.

(** ** One item *)
Definition at_ (l : lexer) (level : nat) (s : str) (q : list Tok) : Prop := here l s /\ err l = None /\ tokens l = map tok q /\ termsLevel l = Z.of_nat level.
Lemma inTerms_at l level s q : at_ l level s q -> inTerms l = (0 <? level).
Proof. intros [_ [_ [_ E]]]. unfold inTerms. rewrite E. destruct level; [reflexivity|]. cbn [Nat.ltb Nat.leb]. apply Z.gtb_lt. lia. Qed.
Lemma at_keeps l l1 level s q s1 : at_ l level s q -> keeps l l1 -> here l1 s1 -> at_ l1 level s1 q.
Proof. intros [_ [E [T0 L]]] [K1 [K2 K3]] H. unfold at_. rewrite K1, K2, K3. auto. Qed.
Lemma at_push l level s q t : at_ l level s q -> at_ (push l (tok t)) level s (q ++ [t]).
Proof. intros [H [E [T0 L]]]. unfold at_. rewrite here_push. cbn [push err tokens termsLevel]. rewrite T0, map_app. auto. Qed.
Lemma at_went l l' level s q s' ts : at_ l level s q -> went l l' s' ts -> at_ l' level s' (q ++ ts).
Proof. intros [_ [E [T0 L]]] [H [E1 [T1 L1]]]. unfold at_. rewrite E1, T1, L1, T0, map_app. auto. Qed.
Lemma at_terms l level level' s q d : at_ l level s q -> (Z.of_nat level' = Z.of_nat level + d)%Z -> at_ (terms l d) level' s q.
Proof. intros [H [E [T0 L]]] Q. unfold at_. rewrite here_terms. cbn [terms err tokens termsLevel]. rewrite L, Q. auto. Qed.
Lemma item_ok big l level s ts level' s' : at_ l level s [] -> length s < big -> 4 <= big -> fetchItem level s = Some (ts, level', s') ->
  exists l', fetchItem_ big l = Done tt l' /\ at_ l' level' s' ts.
Proof.
  intros A L B E. assert (H := proj1 A). unfold fetchItem in E. unfold fetchItem_. destruct (read s) as [[r s1]|] eqn:R; [|discriminate].
  destruct (read_ok _ _ _ _ H R) as [l1 [-> [H1 [B1 K1]]]]. cbn [bind]. assert (A1 := at_keeps _ _ _ _ _ _ A K1 H1). pose proof (read_le _ _ _ R) as Le.
  destruct (unread_back _ _ B1) as [H2 K2]. assert (A2 := at_keeps _ _ _ _ _ _ A1 K2 H2). rewrite (inTerms_at _ _ _ _ A1), (inTerms_at _ _ _ _ A2).
  destruct (Z.eqb_spec r 0); [injection E as <- <- <-; eexists; split; [reflexivity|]; exact (at_push _ _ _ _ TEOF A1)|].
  destruct (Z.eqb_spec r cTermsOpen) as [->|]; [injection E as <- <- <-; eexists; split; [reflexivity|]; refine (at_push _ _ _ _ TOpen (at_terms _ _ _ _ _ 1 A1 _)); lia|].
  destruct (Z.eqb_spec r cComma) as [->|N1].
  { destruct (0 <? level) eqn:Lv; cbn [andb] in *.
    - injection E as <- <- <-. eexists; split; [reflexivity|]. exact (at_push _ _ _ _ TSep A1).
    - cbv [cComma cTermsClose cRangeOpen cSingle cAny Z.eqb Pos.eqb] in E |- *. destruct (text inTextBreakers s) as [[d s2]|] eqn:Tx; [|discriminate]. injection E as <- <- <-.
      destruct (text_ok big _ _ _ _ _ H2 L Tx) as [l' [-> W]]. exists l'. split; [reflexivity|]. exact (at_went _ _ _ _ _ _ _ A2 W). }
  cbn [andb] in *. destruct (Z.eqb_spec r cTermsClose) as [->|N2].
  { destruct (0 <? level) eqn:Lv; cbn [andb] in *.
    - injection E as <- <- <-. eexists; split; [reflexivity|]. apply Nat.ltb_lt in Lv. refine (at_terms _ level _ _ _ (-1) (at_push _ _ _ _ TClose A1) _). lia.
    - cbv [cComma cTermsClose cRangeOpen cSingle cAny Z.eqb Pos.eqb] in E |- *. destruct (text inTextBreakers s) as [[d s2]|] eqn:Tx; [|discriminate]. injection E as <- <- <-.
      destruct (text_ok big _ _ _ _ _ H2 L Tx) as [l' [-> W]]. exists l'. split; [reflexivity|]. exact (at_went _ _ _ _ _ _ _ A2 W). }
  cbn [andb] in *. destruct (Z.eqb_spec r cRangeOpen) as [->|N3].
  { destruct (fetchRange s1) as [[ts1 s2]|] eqn:F; [|discriminate]. injection E as <- <- <-. destruct big as [|[|[|[|f]]]]; [lia|lia|lia|lia|].
    destruct (range_ok f (S (S (S (S f)))) (push l1 (tok TRangeOpen)) s1 ts1 s2 H1 ltac:(lia) F) as [l' [E' W]]. exists l'. split; [exact E'|]. exact (at_went _ _ _ _ _ _ _ (at_push _ _ _ _ TRangeOpen A1) W). }
  destruct (Z.eqb_spec r cSingle) as [->|N4]; [injection E as <- <- <-; eexists; split; [reflexivity|]; exact (at_push _ _ _ _ TSingle A1)|].
  destruct (Z.eqb_spec r cAny) as [->|N5].
  { destruct (read s1) as [[r2 s2]|] eqn:R1; [|discriminate]. destruct (read_ok _ _ _ _ H1 R1) as [l2 [-> [H3 [B3 K3]]]]. cbn [bind]. destruct (Z.eqb_spec r2 cAny) as [->|N6]; injection E as <- <- <-.
    - eexists; split; [reflexivity|]. exact (at_push _ _ _ _ TSuper (at_keeps _ _ _ _ _ _ A1 K3 H3)).
    - destruct (unread_back _ _ B3) as [H4 K4]. eexists; split; [reflexivity|]. exact (at_push _ _ _ _ TAny (at_keeps _ _ _ _ _ _ (at_keeps _ _ _ _ _ _ A1 K3 H3) K4 H4)). }
  destruct (text (if 0 <? level then inTermsBreakers else inTextBreakers) s) as [[d s2]|] eqn:Tx; [|discriminate]. injection E as <- <- <-.
  destruct (text_ok big _ _ _ _ _ H2 L Tx) as [l' [-> W]]. exists l'. split; [reflexivity|]. exact (at_went _ _ _ _ _ _ _ A2 W).
Qed.
Lemma item_bad big l level s : at_ l level s [] -> length s < big -> 4 <= big -> fetchItem level s = None ->
  exists l', fetchItem_ big l = Done tt l' /\ err l' = Some (item_msg s).
Proof.
  intros A L B E. assert (H := proj1 A). unfold fetchItem in E. unfold fetchItem_, item_msg. destruct (read s) as [[r s1]|] eqn:R.
  2:{ destruct (read_bad _ _ H R) as [l1 [-> [_ [_ [Er _]]]]]. cbn [bind]. rewrite Z.eqb_refl. eexists. split; [reflexivity|]. exact Er. }
  destruct (read_ok _ _ _ _ H R) as [l1 [-> [H1 [B1 K1]]]]. cbn [bind]. assert (A1 := at_keeps _ _ _ _ _ _ A K1 H1). pose proof (read_le _ _ _ R) as Le.
  destruct (unread_back _ _ B1) as [H2 K2]. assert (A2 := at_keeps _ _ _ _ _ _ A1 K2 H2). rewrite (inTerms_at _ _ _ _ A1), (inTerms_at _ _ _ _ A2).
  destruct (Z.eqb_spec r 0); [discriminate|]. destruct (Z.eqb_spec r cTermsOpen) as [->|]; [discriminate|].
  assert (TxC : forall br, text br s = None -> exists l', fetchText_ big br false [] (unread l1) = Done tt l' /\ err l' = Some m_rune).
  { intros br Tx. destruct (text_bad big _ _ _ H2 L Tx) as [l' [t [-> [_ [_ [Er _]]]]]]. eauto. }
  destruct (Z.eqb_spec r cComma) as [->|N1].
  { destruct (0 <? level) eqn:Lv; cbn [andb] in *; [discriminate|].
    change (cComma =? cTermsClose)%Z with false in *. change (cComma =? cRangeOpen)%Z with false in *. change (cComma =? cSingle)%Z with false in *. change (cComma =? cAny)%Z with false in *. cbn [andb] in *.
    destruct (text inTextBreakers s) as [[d s2]|] eqn:Tx; [discriminate|]. exact (TxC _ Tx). }
  cbn [andb] in *. destruct (Z.eqb_spec r cTermsClose) as [->|N2].
  { destruct (0 <? level) eqn:Lv; cbn [andb] in *; [discriminate|].
    change (cTermsClose =? cRangeOpen)%Z with false in *. change (cTermsClose =? cSingle)%Z with false in *. change (cTermsClose =? cAny)%Z with false in *.
    destruct (text inTextBreakers s) as [[d s2]|] eqn:Tx; [discriminate|]. exact (TxC _ Tx). }
  cbn [andb] in *. destruct (Z.eqb_spec r cRangeOpen) as [->|N3].
  { destruct (fetchRange s1) as [[ts1 s2]|] eqn:F; [discriminate|]. destruct big as [|[|[|[|f]]]]; [lia|lia|lia|lia|].
    apply (range_bad f (S (S (S (S f)))) (push l1 (tok TRangeOpen)) s1 H1); [lia|exact F]. }
  destruct (Z.eqb_spec r cSingle) as [->|N4]; [discriminate|].
  destruct (Z.eqb_spec r cAny) as [->|N5].
  { destruct (read s1) as [[r2 s2]|] eqn:R1; [destruct (r2 =? cAny)%Z; discriminate|]. destruct (read_bad _ _ H1 R1) as [l2 [-> [H3 [F3 [E3 _]]]]]. cbn [bind]. change (0 =? cAny)%Z with false. cbv iota.
    eexists; split; [reflexivity|]. cbn [push err]. unfold unread. rewrite F3. exact E3. }
  destruct (text (if 0 <? level then inTermsBreakers else inTextBreakers) s) as [[d s2]|] eqn:Tx; [discriminate|]. exact (TxC _ Tx).
Qed.

(** ** All tokens *)
(** The rest of the pattern at the item where the lexer gives up. *)
Fixpoint stuck (fuel : nat) (level : nat) (s : str) : str :=
  match fuel with
  | O => s
  | S f => match fetchItem level s with None => s | Some (_, level', s') => stuck f level' s' end
  end.
Definition Stuck (level : nat) (s : str) : str := stuck (S (length s)) level s.
Lemma stuck_nil_level fuel level : stuck fuel level [] = [].
Proof. revert level. induction fuel as [|f IH]; intros level; [reflexivity|]. cbn [stuck]. change (fetchItem level []) with (Some ([TEOF], level, @nil Z)). apply IH. Qed.
Lemma stuck_fuel fuel : forall level s, length s < fuel -> forall fuel', length s < fuel' -> In TError (Lx level s) -> stuck fuel level s = stuck fuel' level s.
Proof.
  induction fuel as [|f IH]; intros level s L fuel' L' T0; [lia|]. destruct fuel' as [|f']; [lia|]. cbn [stuck]. rewrite Lx_step in T0.
  destruct (fetchItem level s) as [[[ts l'] s']|] eqn:F; [|reflexivity]. destruct (fetchItem_inv _ _ _ _ _ F) as [->|[I G]]; [destruct T0 as [T0|[]]; discriminate|].
  apply IH; [lia|lia|]. pose proof (item_not_eof _ _ _ I) as Ne. pose proof (item_noend _ _ _ I) as [_ Nt].
  assert (In TError (ts ++ Lx l' s')) as Q by (destruct ts as [|t ts]; [exact T0|]; destruct t; try exact T0; destruct ts; [contradiction|exact T0]).
  apply in_app_or in Q. destruct Q as [Q|Q]; [contradiction|exact Q].
Qed.
Lemma Stuck_item level s ts level' s' : fetchItem level s = Some (ts, level', s') -> ts <> [TEOF] -> In TError (Lx level s) -> Stuck level s = Stuck level' s'.
Proof.
  intros F N T0. unfold Stuck at 1. cbn [stuck]. rewrite F. destruct (fetchItem_inv _ _ _ _ _ F) as [->|[I G]]; [contradiction|].
  apply stuck_fuel; [lia|lia|]. rewrite (Lx_item _ _ _ _ _ F N) in T0. apply in_app_or in T0. destruct T0 as [T0|T0]; [|exact T0]. apply item_noend in I. tauto.
Qed.
(** What Next returns when nothing is queued. *)
Lemma Next_at fuel big : forall l level s, at_ l level s [] -> length s < fuel -> length s < big -> 4 <= big ->
  (Lx level s = [TError] /\ exists l', Next fuel big l = Done (T KError (item_msg (Stuck level s))) l' /\ err l' = Some (item_msg (Stuck level s)))
  \/ (Lx level s = [TEOF] /\ exists l', Next fuel big l = Done (T KEOF []) l')
  \/ exists t q level' s' l', Next fuel big l = Done (tok t) l' /\ at_ l' level' s' q /\ Lx level s = t :: q ++ Lx level' s' /\ length s' < length s
       /\ ~ In TError (t :: q) /\ ~ In TEOF (t :: q) /\ (In TError (Lx level s) -> Stuck level s = Stuck level' s').
Proof.
  induction fuel as [|f IH]; intros l level s A L Lb B; [lia|]. assert (A0 := A). destruct A0 as [_ [Er [Tk _]]]. cbn [map] in Tk. cbn [Next]. rewrite Er, Tk.
  destruct (fetchItem level s) as [[[ts level'] s']|] eqn:F.
  - destruct (item_ok big l level s ts level' s' A Lb B F) as [l1 [-> A1]]. cbn [bind]. assert (A2 := A1). destruct A2 as [_ [Er1 [Tk1 _]]].
    assert (Hd : forall t ts0, ts = t :: ts0 -> exists l', Next f big l1 = Done (tok t) l' /\ at_ l' level' s' ts0).
    { intros t ts0 ->. cbn [map] in Tk1. destruct f; cbn [Next]; rewrite Er1, Tk1; (eexists; split; [reflexivity|]); destruct A1 as [H1 [_ [_ Lv]]]; (split; [exact H1|]); repeat split; assumption. }
    destruct (fetchItem_inv _ _ _ _ _ F) as [->|[I G]].
    + right; left. rewrite Lx_step, F. split; [reflexivity|]. destruct (Hd _ _ eq_refl) as [l' [Q _]]. exists l'. exact Q.
    + pose proof (item_not_eof _ _ _ I) as Ne. pose proof (item_noend _ _ _ I) as [N1 N2]. destruct ts as [|t ts].
      * rewrite (Lx_item _ _ _ _ _ F Ne). cbn [app]. destruct (IH l1 level' s' A1 ltac:(lia) ltac:(lia) B) as [[E [l' Q]]|[[E Q]|[t [q [lv [s2 [l' [Q [A' [E [G' [N1' [N2' St]]]]]]]]]]]]].
        -- left. split; [exact E|]. rewrite (Stuck_item _ _ _ _ _ F Ne); [eauto|]. rewrite (Lx_item _ _ _ _ _ F Ne), E. left. reflexivity.
        -- right; left. auto.
        -- right; right. exists t, q, lv, s2, l'. split; [exact Q|]. split; [exact A'|]. split; [exact E|]. split; [lia|]. split; [exact N1'|]. split; [exact N2'|].
           intros T0. rewrite <- (St T0). apply (Stuck_item _ _ _ _ _ F Ne). rewrite (Lx_item _ _ _ _ _ F Ne). exact T0.
      * right; right. destruct (Hd t ts eq_refl) as [l' [Q A']]. exists t, ts, level', s', l'. split; [exact Q|]. split; [exact A'|]. split; [exact (Lx_item _ _ _ _ _ F Ne)|].
        split; [exact G|]. split; [exact N2|]. split; [exact N1|]. apply (Stuck_item _ _ _ _ _ F Ne).
  - left. split; [rewrite Lx_step, F; reflexivity|]. destruct (item_bad big l level s A Lb B F) as [l1 [-> E1]]. cbn [bind].
    assert (Q : Stuck level s = s) by (unfold Stuck; cbn [stuck]; rewrite F; reflexivity). rewrite Q. exists l1. split; [|exact E1]. destruct f; cbn [Next]; rewrite E1; reflexivity.
Qed.

(** ** The parser *)
(** [parse] of GlobLex with the texts of the errors; [m] is that of the lexer. *)
Fixpoint parseM (m : str) (ts : list Tok) (mode : option RState) (cur : list Node) (stk : Stack) : outcome :=
  match ts with
  | [] => OPanic
  | t :: ts' =>
      match mode with
      | None =>
          match t with
          | TEOF => OTree (unwind cur stk)
          | TError => OError m
          | TText raw => parseM m ts' None (NText raw :: cur) stk
          | TAny => parseM m ts' None (NAny :: cur) stk
          | TSuper => parseM m ts' None (NSuper :: cur) stk
          | TSingle => parseM m ts' None (NSingle :: cur) stk
          | TRangeOpen => parseM m ts' (Some rstart) cur stk
          | TOpen => parseM m ts' None [] (([], cur) :: stk)
          | TSep => match stk with [] => OPanic | (alts, up) :: stk' => parseM m ts' None [] ((NPattern (rev cur) :: alts, up) :: stk') end
          | TClose => match stk with [] => OPanic | (alts, up) :: stk' => parseM m ts' None (NAnyOf (rev (NPattern (rev cur) :: alts)) :: up) stk' end
          | TNot | TRangeClose | TLo _ | THi _ | TBetween => OError m_token
          end
      | Some st =>
          match t with
          | TEOF => OError m_unexpected_end
          | TError => OError m
          | TNot => parseM m ts' (Some {| rnot := true; rlo := rlo st; rhi := rhi st; rchars := rchars st |}) cur stk
          | TLo raw => let '(r, w) := decode raw in if w <? length raw then OError m_length
                       else parseM m ts' (Some {| rnot := rnot st; rlo := r; rhi := rhi st; rchars := rchars st |}) cur stk
          | TBetween => parseM m ts' mode cur stk
          | THi raw => let '(r, w) := decode raw in if w <? length raw then OError m_length
                       else if (r <? rlo st)%Z then OError (m_order r (rlo st))
                       else parseM m ts' (Some {| rnot := rnot st; rlo := rlo st; rhi := r; rchars := rchars st |}) cur stk
          | TText raw => parseM m ts' (Some {| rnot := rnot st; rlo := rlo st; rhi := rhi st; rchars := raw |}) cur stk
          | TRangeClose =>
              let isRange := negb (rlo st =? 0)%Z && negb (rhi st =? 0)%Z in
              let isChars := negb (eqs (rchars st) []) in
              if Bool.eqb isChars isRange then OError m_range
              else parseM m ts' None ((if isRange then NRange (rnot st) (rlo st) (rhi st) else NList (rnot st) (rchars st)) :: cur) stk
          | _ => parseM m ts' mode cur stk
          end
      end
  end.
Definition erase (o : outcome) : PRes := match o with OTree n => POk n | OError _ => PErr | OPanic | OHang => PCrash end.
Lemma parseM_parse m ts : forall mode cur stk, erase (parseM m ts mode cur stk) = parse ts mode cur stk.
Proof.
  induction ts as [|t ts IH]; intros mode cur stk; [reflexivity|]. cbn [parseM parse]. destruct mode as [st|].
  - destruct t; try reflexivity; try apply IH.
    + destruct (Bool.eqb _ _); [reflexivity|apply IH].
    + destruct (decode raw) as [r w]. destruct (w <? length raw); [reflexivity|apply IH].
    + destruct (decode raw) as [r w]. destruct (w <? length raw); [reflexivity|]. destruct (r <? rlo st)%Z; [reflexivity|apply IH].
  - destruct t; try reflexivity; try apply IH; destruct stk as [|[alts up] stk]; try reflexivity; apply IH.
Qed.
Lemma parse_step f big mode cur stk l t l1 m : Next big big l = Done t l1 -> forall t0 ts, t = (match t0 with TError => T KError m | _ => tok t0 end) ->
  (t0 = TEOF \/ t0 = TError \/ forall mode' cur' stk', parse_ f big mode' cur' stk' l1 = parseM m ts mode' cur' stk') ->
  parse_ (S f) big mode cur stk l = parseM m (t0 :: ts) mode cur stk.
Proof.
  intros Nx t0 ts -> K. cbn [parse_ parseM]. rewrite Nx. clear Nx. destruct K as [->|[->|K]]; [destruct mode; reflexivity|destruct mode; reflexivity|].
  destruct mode as [st|].
  - destruct t0; cbn [tok Type_ T Raw]; try reflexivity; try apply K.
    + destruct (Bool.eqb _ _); [reflexivity|apply K].
    + destruct (decode raw) as [r w]. destruct (w <? length raw); [reflexivity|apply K].
    + destruct (decode raw) as [r w]. destruct (w <? length raw); [reflexivity|]. destruct (r <? rlo st)%Z; [reflexivity|apply K].
  - destruct t0; cbn [tok Type_ T Raw]; try reflexivity; try apply K; destruct stk as [|[alts up] stk]; try reflexivity; apply K.
Qed.
Lemma parse_at big fuel : forall l level s q mode cur stk m, at_ l level s q -> length s < big -> 4 <= big -> length (q ++ Lx level s) < fuel -> ~ In TError q ->
  (In TError (Lx level s) -> m = item_msg (Stuck level s)) -> parse_ fuel big mode cur stk l = parseM m (q ++ Lx level s) mode cur stk.
Proof.
  induction fuel as [|f IH]; intros l level s q mode cur stk m A Lb B L Ne Hm; [lia|]. destruct q as [|t q].
  - cbn [app] in *. destruct (Next_at big big l level s A Lb Lb B) as [[E [l' [Nx _]]]|[[E [l' Nx]]|[t [q [lv [s' [l' [Nx [A' [E [G [N1 [N2 St]]]]]]]]]]]]].
    + rewrite E in *. apply (parse_step f big mode cur stk l _ l' m Nx TError []); [|auto]. rewrite Hm; [reflexivity|left; reflexivity].
    + rewrite E. apply (parse_step f big mode cur stk l _ l' m Nx TEOF []); auto.
    + rewrite E in *. apply (parse_step f big mode cur stk l _ l' m Nx t (q ++ Lx lv s')).
      * destruct t; try reflexivity. elim N1. left. reflexivity.
      * right; right. intros mode' cur' stk'. apply IH; [exact A'|lia|exact B|cbn [length] in L; lia|intros Q; apply N1; right; exact Q|].
        intros T0. assert (In TError (t :: q ++ Lx lv s')) by (right; apply in_or_app; auto). rewrite Hm, (St H); auto.
  - destruct A as [H [Er [Tk Lv]]]. cbn [map] in Tk. assert (exists l', Next big big l = Done (tok t) l' /\ at_ l' level s q) as [l' [Nx A']].
    { destruct big; cbn [Next]; rewrite Er, Tk; (eexists; split; [reflexivity|]); (split; [exact H|]); repeat split; assumption. }
    cbn [app]. apply (parse_step f big mode cur stk l _ l' m Nx t (q ++ Lx level s)).
    + destruct t; try reflexivity. elim Ne. left. reflexivity.
    + right; right. intros mode' cur' stk'. apply IH; [exact A'|exact Lb|exact B|cbn [app length] in L; lia|intros Q; apply Ne; right; exact Q|exact Hm].
Qed.
Lemma item_length level ts level' : item level ts level' -> length ts <= 6.
Proof.
  intros I. unfold item in I. destruct I as [[-> _]|[[-> _]|[[-> _]|[[A _]|[[-> _]|[[-> _]|[[-> _]|[[d ->] _]]]]]]]]; cbn [length]; try lia.
  - destruct A as [pre [post [P [-> Q]]]]. cbn [length]. rewrite !app_length. cbn [length].
    assert (length pre <= 1) by (destruct P as [->| ->]; cbn; lia). assert (length post <= 3) by (destruct Q as [[a [b ->]]|[d ->]]; [cbn; lia|destruct d; cbn; lia]). lia.
  - destruct d; cbn; lia.
Qed.
Lemma Lx_length k : forall level s, length s < k -> length (Lx level s) <= 6 * length s + 1.
Proof.
  induction k as [|k IH]; intros level s L; [lia|]. destruct (Lx_cases level s) as [->|[->|[ts [lv [s' [I [G ->]]]]]]]; [cbn; lia|cbn; lia|].
  rewrite app_length. pose proof (item_length _ _ _ I). specialize (IH lv s' ltac:(lia)). lia.
Qed.
Lemma at_new p : at_ (NewLexer p) 0 p [].
Proof. unfold at_, here, NewLexer. cbn [pos data hasRune err tokens termsLevel map]. repeat split; try lia; discriminate. Qed.
(** The whole of Parse: enough steps are six a byte. *)
Lemma Parse_parseM fuel p : 6 * length p + 4 <= fuel -> Parse_ fuel p = parseM (item_msg (Stuck 0 p)) (Lex p) None [] [].
Proof.
  intros L. unfold Parse_. pose proof (Lx_length (S (length p)) 0 p ltac:(lia)) as Q. rewrite (parse_at fuel fuel (NewLexer p) 0 p [] None [] [] (item_msg (Stuck 0 p))); [reflexivity|apply at_new|lia|lia|cbn [app]; lia|auto|reflexivity].
Qed.
