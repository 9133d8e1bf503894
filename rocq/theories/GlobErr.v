(** * The texts of the errors of the glob parser (C84): proofs. *)
From Coq Require Import String ZArith Arith List Bool Lia.
From Verif Require Import Utf8 GoStr GlobLex GlobSpec GlobParse GlobGramSpec GlobGram GlobLexer GlobLexerProofs GlobErrSpec.
Import ListNotations.

Lemma unreadable_read t : unreadable t <-> read t = None.
Proof.
  unfold unreadable, read. split.
  - intros [N E]. destruct t as [|b t]; [contradiction|]. destruct (decode (b :: t)) as [r w]. cbn in E. subst r. rewrite Z.eqb_refl. reflexivity.
  - destruct t as [|b t]; [discriminate|]. destruct (decode (b :: t)) as [r w]. destruct (Z.eqb_spec r RuneError); [|discriminate]. intros _. split; [discriminate|assumption].
Qed.
Lemma Tok_dec (a b : Tok) : {a = b} + {a <> b}. Proof. decide equality; apply (list_eq_dec Z.eq_dec). Qed.
(** ** What remains, with its message *)
Definition run (level : nat) (s : str) (cur : list Node) (stk : Stack) : outcome := parseM (item_msg (Stuck level s)) (Lx level s) None cur stk.
Lemma parseM_irrelevant m m' ts : ~ In TError ts -> forall mode cur stk, parseM m ts mode cur stk = parseM m' ts mode cur stk.
Proof.
  induction ts as [|t ts IH]; intros N mode cur stk; [reflexivity|]. assert (N' : ~ In TError ts) by (intros Q; apply N; right; exact Q). assert (Nt : t <> TError) by (intros ->; apply N; left; reflexivity).
  specialize (IH N'). cbn [parseM]. destruct mode as [st|].
  - destruct t; try contradiction; try reflexivity; try apply IH.
    + destruct (Bool.eqb _ _); [reflexivity|apply IH].
    + destruct (decode raw) as [r w]. destruct (w <? length raw); [reflexivity|apply IH].
    + destruct (decode raw) as [r w]. destruct (w <? length raw); [reflexivity|]. destruct (r <? rlo st)%Z; [reflexivity|apply IH].
  - destruct t; try contradiction; try reflexivity; try apply IH; destruct stk as [|[alts up] stk]; try reflexivity; apply IH.
Qed.
Lemma run_item level s ts level' s' cur stk : fetchItem level s = Some (ts, level', s') -> ts <> [TEOF] ->
  run level s cur stk = parseM (item_msg (Stuck level' s')) (ts ++ Lx level' s') None cur stk.
Proof.
  intros F N. unfold run. rewrite <- (Lx_item _ _ _ _ _ F N). assert (D : In TError (Lx level s) \/ ~ In TError (Lx level s)).
  { destruct (in_dec Tok_dec TError (Lx level s)); auto. }
  destruct D as [D|D]; [rewrite (Stuck_item _ _ _ _ _ F N D); reflexivity|apply parseM_irrelevant, D].
Qed.
Lemma run_bad level s cur stk : fetchItem level s = None -> run level s cur stk = OError (item_msg s).
Proof. intros F. unfold run. rewrite Lx_step, F. unfold Stuck. cbn [stuck]. rewrite F. reflexivity. Qed.
Lemma run_eof level s cur stk level' s' : fetchItem level s = Some ([TEOF], level', s') -> run level s cur stk = OTree (unwind cur stk).
Proof. intros F. unfold run. rewrite Lx_step, F. reflexivity. Qed.
Lemma Parse_run fuel p : 6 * length p + 4 <= fuel -> Parse_ fuel p = run 0 p [] [].
Proof. exact (Parse_parseM fuel p). Qed.

(** ** A class between brackets: what the parser makes of it *)
Lemma hp_read c s : (0 < c < 128)%Z -> HasPrefix s [c] = true -> exists s1, s = c :: s1 /\ read s = Some (c, s1).
Proof. intros B E. apply HasPrefix_iff in E. destruct E as [r ->]. exists r. split; [reflexivity|]. apply read_ascii, B. Qed.
Lemma gone_read t : good t -> gone t <-> (read t = None \/ exists s', read t = Some (0%Z, s')).
Proof.
  intros G. unfold gone. rewrite unreadable_read. split; [intros [->|E]; [right; eexists; reflexivity|auto]|]. intros [E|[s' E]]; [auto|]. left. apply (read_zero _ _ G E).
Qed.

Lemma fetchText_none_inv br : plain_set br -> forall fuel s data, good s -> length s < fuel -> fetchText fuel br false s data = None ->
  exists cs x t, writes_text br cs x /\ s = x ++ t /\ (unreadable t \/ exists u, t = cEscape :: u /\ unreadable u).
Proof.
  intros PS. induction fuel as [fuel IH] using lt_wf_ind. intros s data G L F. destruct fuel as [|f]; [lia|]. cbn [fetchText] in F.
  destruct (read s) as [[r s']|] eqn:R; [|exists [], [], s; split; [constructor|]; split; [reflexivity|]; left; apply unreadable_read, R]. destruct (Z.eqb_spec r 0) as [->|N0]; [discriminate|].
  assert (NE : s <> []) by (intros ->; cbn in R; injection R as <- _; contradiction). destruct (read_inv _ _ _ G R NE) as [W E]. pose proof (encode_length r) as LE.
  assert (G' : good s') by (rewrite E in G; apply good_app in G; tauto). cbn [negb andb] in F. destruct (Z.eqb_spec r cEscape) as [->|NEs].
  - rewrite (encode_ascii cEscape) in E by (unfold cEscape; lia). cbn [app] in E. destruct f as [|f]; [rewrite E in L; cbn in L; lia|]. cbn [fetchText negb andb] in F. destruct (read s') as [[r2 s2]|] eqn:R2.
    2:{ exists [], [], s. split; [constructor|]. split; [reflexivity|]. right. exists s'. split; [exact E|apply unreadable_read, R2]. }
    destruct (Z.eqb_spec r2 0) as [->|N2]; [discriminate|].
    assert (NE2 : s' <> []) by (intros ->; cbn in R2; injection R2 as <- _; contradiction). destruct (read_inv _ _ _ G' R2 NE2) as [W2 E2]. pose proof (encode_length r2) as LE2.
    assert (G2 : good s2) by (rewrite E2 in G'; apply good_app in G'; tauto).
    destruct (IH f ltac:(lia) s2 (r2 :: data) G2 ltac:(rewrite E, E2 in L; cbn [length] in L; rewrite app_length in L; lia) F) as [cs [x [t [Wx [H1 H2]]]]].
    exists (r2 :: cs), (cEscape :: encode r2 ++ x), t. split; [constructor; assumption|]. split; [|exact H2]. rewrite E, E2, H1. cbn [app]. rewrite <- app_assoc. reflexivity.
  - destruct (existsb (Z.eqb r) br) eqn:X; [discriminate|].
    destruct (IH f ltac:(lia) s' (r :: data) G' ltac:(rewrite E in L; rewrite app_length in L; lia) F) as [cs [x [t [Wx [H1 H2]]]]].
    exists (r :: cs), (encode r ++ x), t. split; [|split; [rewrite E, H1, <- app_assoc; reflexivity|exact H2]].
    constructor; [exact W| |exact NEs|exact Wx]. intros I. rewrite (existsb_eqb_in _ _ I) in X. discriminate.
Qed.
Lemma text_none_inv br s : plain_set br -> good s -> text br s = None -> exists cs x t, writes_text br cs x /\ s = x ++ t /\ (unreadable t \/ exists u, t = cEscape :: u /\ unreadable u).
Proof. intros PS G F. apply (fetchText_none_inv br PS (S (length s)) s []); [exact G|lia|exact F]. Qed.
Lemma close_plain : plain_set [cRangeClose].
Proof. constructor; [unfold cRangeClose, cEscape; lia|constructor]. Qed.
Lemma second_read s : second_hyphen s -> exists r s1 s2, read s = Some (r, s1) /\ read s1 = Some (cBetween, s2).
Proof. intros [c [y [W ->]]]. rewrite read_rune by exact W. exists c, ([cBetween] ++ y), y. split; [reflexivity|]. apply read_ascii. unfold cBetween. lia. Qed.
(** What is wrong with a class whose tokens cannot be read. *)
Lemma rest_msg_bad v : good v -> range_rest v = None -> bad_class v (rest_msg v).
Proof.
  intros G H. unfold range_rest in H. unfold rest_msg. destruct (read v) as [[r s1]|] eqn:R1.
  2:{ apply (bc_text [] [] v); [constructor|left; right; apply unreadable_read, R1|]. cbn [app]. intros Q. destruct (second_read _ Q) as [? [? [? [Q1 _]]]]. congruence. }
  destruct (Z.eqb_spec r 0) as [->|N0].
  { destruct (read_zero _ _ G R1) as [-> _]. apply (bc_text [] [] []); [constructor|left; left; reflexivity|]. cbn [app]. intros Q. destruct (second_read _ Q) as [? [? [? [Q1 Q2]]]]. cbn in Q1. injection Q1 as _ <-. discriminate Q2. }
  assert (NE : v <> []) by (intros ->; cbn in R1; injection R1 as <- _; contradiction). destruct (read_inv _ _ _ G R1 NE) as [W E]. assert (G1 : good s1) by (rewrite E in G; apply good_app in G; tauto).
  assert (Ns : forall s2, read s1 <> Some (cBetween, s2) -> True) by auto. clear Ns.
  assert (SH : (forall s2, read s1 <> Some (cBetween, s2)) -> ~ second_hyphen v). { intros Q P. destruct (second_read _ P) as [r' [s1' [s2 [Q1 Q2]]]]. rewrite R1 in Q1. injection Q1 as <- <-. exact (Q _ Q2). }
  destruct (read s1) as [[n s2]|] eqn:R2.
  - destruct (Z.eqb_spec n cBetween) as [->|Nb].
    + assert (NE1 : s1 <> []) by (intros ->; cbn in R2; discriminate R2). destruct (read_inv _ _ _ G1 R2 NE1) as [_ E1]. assert (G2 : good s2) by (rewrite E1 in G1; apply good_app in G1; tauto). rewrite (encode_ascii cBetween) in E1 by (unfold cBetween; lia).
      rewrite E, E1. destruct (read s2) as [[hi s3]|] eqn:R3; [|apply bc_hi; [exact W|right; apply unreadable_read, R3]]. destruct (Z.eqb_spec hi 0) as [->|Nh].
      { destruct (read_zero _ _ G2 R3) as [-> _]. apply bc_hi; [exact W|left; reflexivity]. }
      assert (NE2 : s2 <> []) by (intros ->; cbn in R3; injection R3 as <- _; contradiction). destruct (read_inv _ _ _ G2 R3 NE2) as [Wh E2]. assert (G3 : good s3) by (rewrite E2 in G2; apply good_app in G2; tauto).
      rewrite E2. unfold close_msg. destruct (read s3) as [[c s4]|] eqn:R4; [|apply bc_end; [exact W|exact Wh|right; apply unreadable_read, R4]].
      destruct (Z.eqb_spec c 0) as [->|Nc]; [destruct (read_zero _ _ G3 R4) as [-> _]; apply bc_end; [exact W|exact Wh|left; reflexivity]|].
      assert (NE3 : s3 <> []) by (intros ->; cbn in R4; injection R4 as <- _; contradiction). destruct (read_inv _ _ _ G3 R4 NE3) as [Wc E3]. rewrite E3. apply bc_close; [assumption|assumption|assumption|].
      destruct (Z.eqb_spec c cRangeClose); [discriminate|assumption].
    + assert (SH' : ~ second_hyphen v) by (apply SH; intros s3 Q; injection Q as Q _; contradiction).
      destruct (text [cRangeClose] v) as [[d s3]|] eqn:Tx.
      * assert (close_msg s3 = m_end /\ exists cs x, writes_text [cRangeClose] cs x /\ exists t, v = x ++ t /\ broken t) as [Mc [cs [x [Wx [t [Ev Bt]]]]]].
        { destruct (text_inv _ _ _ _ close_plain G Tx) as [x [Wx [[Es St]|[Es ->]]]].
          - destruct St as [->|[c [y [-> [Bc [Ic _]]]]]]; [split; [reflexivity|]; exists d, x; split; [exact Wx|]; exists []; split; [exact Es|left; left; reflexivity]|].
            destruct Ic as [<-|[]]. rewrite read_ascii in H by (unfold cRangeClose; lia). rewrite Z.eqb_refl in H. discriminate.
          - split; [reflexivity|]. exists d, x. split; [exact Wx|]. exists [cEscape]. split; [exact Es|]. right. exists []. split; [reflexivity|left; reflexivity]. }
        rewrite Mc. rewrite Ev in SH' |- *. apply (bc_text cs); assumption.
      * destruct (text_none_inv _ _ close_plain G Tx) as [cs [x [t [Wx [Ev Bt]]]]]. rewrite Ev in SH' |- *. apply (bc_text cs); [exact Wx| |exact SH'].
        destruct Bt as [Bt|[u [-> Bt]]]; [left; right; exact Bt|right; exists u; split; [reflexivity|right; exact Bt]].
  - apply unreadable_read in R2. destruct (Z.eqb_spec r cRangeClose) as [->|Nc]; [rewrite E, encode_ascii by (unfold cRangeClose; lia); apply bc_rune, R2|].
    assert (SH' : ~ second_hyphen v) by (apply SH; discriminate). rewrite E in SH' |- *. destruct (Z.eq_dec r cEscape) as [->|Ne].
    + rewrite (encode_ascii cEscape) in * by (unfold cEscape; lia). apply (bc_text [] [] ([cEscape] ++ s1)); [constructor| |exact SH']. right. exists s1. split; [reflexivity|right; exact R2].
    + apply (bc_text [r] (encode r)); [|left; right; exact R2|exact SH']. rewrite <- (app_nil_r (encode r)). constructor; [exact W| |exact Ne|constructor]. intros [Q|[]]; congruence.
Qed.
(** ** And back *)
Lemma gone_none t : gone t -> read t = None \/ read t = Some (0%Z, []).
Proof. intros [->|U]; [right; reflexivity|left; apply unreadable_read, U]. Qed.
Lemma fetchText_broken br sp cs x : writes_text sp cs x -> (forall c, In c br -> In c sp) -> ~ In cEscape br -> forall fuel t data, broken t -> length (x ++ t) < fuel ->
  fetchText fuel br false (x ++ t) data = None \/ exists d, fetchText fuel br false (x ++ t) data = Some (d, []).
Proof.
  intros W Br Ne. induction W as [|c cs s Wc Nc NE W IH|c cs s Wc W IH]; intros fuel t data B L.
  - destruct fuel as [|f]; [lia|]. cbn [app fetchText]. destruct B as [B|[u [-> B]]].
    + destruct (gone_none _ B) as [-> | ->]; [auto|right; eexists; reflexivity].
    + rewrite read_ascii by (unfold cEscape; lia). cbn [cEscape Z.eqb Pos.eqb negb andb]. cbn [app length] in L. destruct f as [|f]; [lia|]. cbn [fetchText]. destruct (gone_none _ B) as [-> | ->]; [auto|right; eexists; reflexivity].
  - destruct fuel as [|f]; [lia|]. rewrite <- app_assoc in *. cbn [fetchText]. rewrite read_rune by exact Wc. destruct (Wc) as [_ [N0 _]]. rewrite (proj2 (Z.eqb_neq c 0)) by exact N0. rewrite (proj2 (Z.eqb_neq c cEscape)) by exact NE. cbn [negb andb].
    rewrite existsb_eqb_notin by (intros I; apply Nc, Br, I). pose proof (encode_length c). rewrite app_length in L. apply IH; [exact B|lia].
  - destruct fuel as [|[|f]]; [lia|cbn in L; lia|]. cbn [app] in *. rewrite <- app_assoc in *. cbn [fetchText]. rewrite read_ascii by (unfold cEscape; lia). cbn [Z.eqb cEscape negb andb Pos.eqb].
    rewrite read_rune by exact Wc. destruct (Wc) as [_ [N0 _]]. rewrite (proj2 (Z.eqb_neq c 0)) by exact N0. pose proof (encode_length c). cbn [length] in L. rewrite app_length in L. apply IH; [exact B|lia].
Qed.
Lemma fetchText_unreadable br sp cs x : writes_text sp cs x -> (forall c, In c br -> In c sp) -> forall fuel t data, unreadable t \/ (exists u, t = cEscape :: u /\ unreadable u) -> length (x ++ t) < fuel ->
  fetchText fuel br false (x ++ t) data = None.
Proof.
  intros W Br. induction W as [|c cs s Wc Nc NE W IH|c cs s Wc W IH]; intros fuel t data B L.
  - destruct fuel as [|f]; [lia|]. cbn [app fetchText]. destruct B as [B|[u [-> B]]].
    + apply unreadable_read in B. rewrite B. reflexivity.
    + rewrite read_ascii by (unfold cEscape; lia). cbn [cEscape Z.eqb Pos.eqb negb andb]. cbn [app length] in L. destruct f as [|f]; [lia|]. cbn [fetchText]. apply unreadable_read in B. rewrite B. reflexivity.
  - destruct fuel as [|f]; [lia|]. rewrite <- app_assoc in *. cbn [fetchText]. rewrite read_rune by exact Wc. destruct (Wc) as [_ [N0 _]]. rewrite (proj2 (Z.eqb_neq c 0)) by exact N0. rewrite (proj2 (Z.eqb_neq c cEscape)) by exact NE. cbn [negb andb].
    rewrite existsb_eqb_notin by (intros I; apply Nc, Br, I). pose proof (encode_length c). rewrite app_length in L. apply IH; [exact B|lia].
  - destruct fuel as [|[|f]]; [lia|cbn in L; lia|]. cbn [app] in *. rewrite <- app_assoc in *. cbn [fetchText]. rewrite read_ascii by (unfold cEscape; lia). cbn [Z.eqb cEscape negb andb Pos.eqb].
    rewrite read_rune by exact Wc. destruct (Wc) as [_ [N0 _]]. rewrite (proj2 (Z.eqb_neq c 0)) by exact N0. pose proof (encode_length c). cbn [length] in L. rewrite app_length in L. apply IH; [exact B|lia].
Qed.
Lemma rest_text v : good v -> ~ second_hyphen v -> (forall s1, read v <> Some (cRangeClose, s1)) -> (text [cRangeClose] v = None \/ exists d, text [cRangeClose] v = Some (d, [])) ->
  range_rest v = None /\ rest_msg v = m_end.
Proof.
  intros G SH Nc Tx. unfold range_rest, rest_msg. destruct (read v) as [[r s1]|] eqn:R1; [|auto]. destruct (Z.eqb_spec r 0) as [|N0]; [auto|].
  assert (NE : v <> []) by (intros ->; cbn in R1; injection R1 as <- _; contradiction). destruct (read_inv _ _ _ G R1 NE) as [W E]. assert (G1 : good s1) by (rewrite E in G; apply good_app in G; tauto).
  destruct (Z.eqb_spec r cRangeClose) as [->|Nr]; [elim (Nc s1); reflexivity|].
  destruct (read s1) as [[n s2]|] eqn:R2; [|auto]. destruct (Z.eqb_spec n cBetween) as [->|Nb].
  - exfalso. apply SH. assert (NE1 : s1 <> []) by (intros ->; cbn in R2; discriminate R2). destruct (read_inv _ _ _ G1 R2 NE1) as [_ E1]. rewrite (encode_ascii cBetween) in E1 by (unfold cBetween; lia).
    exists r, s2. split; [exact W|]. rewrite E, E1. reflexivity.
  - destruct Tx as [-> | [d ->]]; [auto|]. split; reflexivity.
Qed.
Lemma bad_class_lex v m : good v -> bad_class v m -> (range_rest v = None /\ rest_msg v = m)
  \/ (exists lo hi t, writable lo /\ writable hi /\ (hi < lo)%Z /\ m = m_order hi lo /\ range_rest v = Some ([TLo (encode lo); TBetween; THi (encode hi); TRangeClose], t))
  \/ (m = m_range /\ exists t, range_rest v = Some ([TRangeClose], t)).
Proof.
  intros G B. destruct B as [cs x t W Bt SH|lo t W Gt|lo hi t W Wh Gt|lo hi c t W Wh Wc Nc|lo hi t W Wh Lt|t U H|t U].
  - left. apply rest_text; [exact G|exact SH| |].
    + intros s1 R. destruct cs as [|c cs].
      * inversion W; subst x. cbn [app] in R. destruct Bt as [Bt|[u [-> _]]]; [destruct (gone_none _ Bt) as [Q|Q]; rewrite Q in R; discriminate|]. rewrite read_ascii in R by (unfold cEscape; lia). discriminate.
      * destruct (first_rune_text _ _ _ t W ltac:(discriminate)) as [r [s2 [R2 [_ I]]]]. rewrite R in R2. injection R2 as <- _. destruct I as [I|I]; [apply I; left; reflexivity|discriminate].
    + unfold text. apply (fetchText_broken _ _ cs x W (fun c H => H)); [intros [Q|[]]; discriminate|exact Bt|lia].
  - left. unfold range_rest, rest_msg. rewrite read_rune by exact W. destruct W as [_ [N0 _]]. rewrite (proj2 (Z.eqb_neq lo 0)) by exact N0. cbn [app]. rewrite read_ascii by (unfold cBetween; lia). rewrite Z.eqb_refl.
    destruct (gone_none _ Gt) as [-> | ->]; auto.
  - left. unfold range_rest, rest_msg. rewrite read_rune by exact W. destruct W as [_ [N0 _]]. rewrite (proj2 (Z.eqb_neq lo 0)) by exact N0. cbn [app]. rewrite read_ascii by (unfold cBetween; lia). rewrite Z.eqb_refl.
    rewrite read_rune by exact Wh. destruct Wh as [_ [Nh _]]. rewrite (proj2 (Z.eqb_neq hi 0)) by exact Nh. unfold close_msg. destruct (gone_none _ Gt) as [-> | ->]; auto.
  - left. unfold range_rest, rest_msg. rewrite read_rune by exact W. destruct W as [_ [N0 _]]. rewrite (proj2 (Z.eqb_neq lo 0)) by exact N0. cbn [app]. rewrite read_ascii by (unfold cBetween; lia). rewrite Z.eqb_refl.
    rewrite read_rune by exact Wh. destruct Wh as [_ [Nh _]]. rewrite (proj2 (Z.eqb_neq hi 0)) by exact Nh. unfold close_msg. rewrite read_rune by exact Wc. destruct Wc as [_ [Nz _]]. rewrite (proj2 (Z.eqb_neq c 0)) by exact Nz.
    rewrite (proj2 (Z.eqb_neq c cRangeClose)) by exact Nc. auto.
  - right; left. exists lo, hi, t. split; [exact W|]. split; [exact Wh|]. split; [exact Lt|]. split; [reflexivity|]. apply range_rest_range; assumption.
  - right; right. split; [reflexivity|]. exists t. unfold range_rest. cbn [app]. rewrite read_ascii by (unfold cRangeClose; lia). cbn [cRangeClose Z.eqb].
    destruct (read t) as [[n s2]|] eqn:R; [|elim U; apply unreadable_read, R]. assert (Nb : n <> cBetween).
    { intros ->. change ([cRangeClose] ++ t) with (cRangeClose :: t) in G. assert (G1 : good t) by (change (cRangeClose :: t) with ([cRangeClose] ++ t) in G; apply good_app in G; tauto).
      assert (NE : t <> []) by (intros ->; discriminate R). destruct (read_inv _ _ _ G1 R NE) as [_ E]. rewrite E in H. discriminate H. }
    rewrite (proj2 (Z.eqb_neq n cBetween)) by exact Nb. unfold text. cbn [fetchText]. rewrite read_ascii by (unfold cRangeClose; lia). cbv [cRangeClose cEscape Z.eqb Pos.eqb negb andb existsb orb rev]. fold cRangeClose. rewrite read_ascii by (unfold cRangeClose; lia). reflexivity.
  - left. unfold range_rest, rest_msg. cbn [app]. rewrite read_ascii by (unfold cRangeClose; lia). apply unreadable_read in U. rewrite U. split; reflexivity.
Qed.
Lemma not_mark v : good v -> HasPrefix v [cRangeNot] = false -> forall r s1, read v = Some (r, s1) -> r <> cRangeNot.
Proof. intros G H r s1 R ->. assert (NE : v <> []) by (intros ->; discriminate R). destruct (read_inv _ _ _ G R NE) as [_ E]. rewrite E in H. discriminate H. Qed.
Lemma mark_range not v : good v -> (not = false -> HasPrefix v [cRangeNot] = false) ->
  fetchRange (mark not ++ v) = match range_rest v with Some (ts, s') => Some ((if not then [TNot] else []) ++ ts, s') | None => None end
  /\ (range_rest v = None -> range_msg (mark not ++ v) = rest_msg v).
Proof.
  intros G H. unfold fetchRange, range_msg. destruct not; cbn [mark app].
  - rewrite read_ascii by (unfold cRangeNot; lia). rewrite Z.eqb_refl. split; [|auto]. destruct (range_rest v) as [[? ?]|]; reflexivity.
  - specialize (H eq_refl). destruct (read v) as [[r s1]|] eqn:R.
    + pose proof (not_mark v G H _ _ R) as N. rewrite (proj2 (Z.eqb_neq r cRangeNot)) by exact N. split; [destruct (range_rest v) as [[? ?]|]; reflexivity|auto].
    + unfold range_rest, rest_msg. rewrite R. auto.
Qed.
Lemma open_item level u : fetchItem level (cRangeOpen :: u) = match fetchRange u with Some (ts, s2) => Some (TRangeOpen :: ts, level, s2) | None => None end /\ item_msg (cRangeOpen :: u) = range_msg u.
Proof. unfold fetchItem, item_msg. rewrite read_ascii by (unfold cRangeOpen; lia). cbn [Z.eqb cRangeOpen cTermsOpen cComma cTermsClose Pos.eqb andb]. auto. Qed.
(** A bad class ends the parse with its message, wherever it stands. *)
Lemma run_bad_class level not v m cur stk : good v -> (not = false -> HasPrefix v [cRangeNot] = false) -> bad_class v m ->
  run level (cRangeOpen :: mark not ++ v) cur stk = OError m.
Proof.
  intros G H B. destruct (mark_range not v G H) as [F M]. destruct (open_item level (mark not ++ v)) as [FI MI]. rewrite F in FI. destruct (bad_class_lex v m G B) as [[R <-]|[[lo [hi [t [Wl [Wh [Lt [-> R]]]]]]]|[-> [t R]]]]; rewrite R in FI.
  - rewrite run_bad by exact FI. rewrite MI, M by exact R. reflexivity.
  - rewrite (run_item _ _ _ _ _ _ _ FI) by discriminate. destruct not; cbn [app parseM]; rewrite (decode_writable lo Wl), (decode_writable hi Wh), !Nat.ltb_irrefl; cbn [rlo]; rewrite (proj2 (Z.ltb_lt hi lo) Lt); reflexivity.
  - rewrite (run_item _ _ _ _ _ _ _ FI) by discriminate. destruct not; reflexivity.
Qed.
(** ** Past good terms *)
Definition bad_rest (t : str) : Prop := unreadable t \/ exists u, t = cEscape :: u /\ unreadable u.
Lemma text_item a level r s : (0 <? level) = a -> (exists s1, read s = Some (r, s1)) -> r <> 0%Z -> (~ In r (special_in a) \/ r = cEscape) ->
  fetchItem level s = match text (special_in a) s with Some (d, s2) => Some (text_tok d, level, s2) | None => None end /\ item_msg s = m_rune.
Proof.
  intros A [s1 R] N0 I. unfold fetchItem, item_msg. rewrite R.
  assert (D : (r =? cTermsOpen)%Z = false /\ (r =? cComma)%Z && (0 <? level) = false /\ (r =? cTermsClose)%Z && (0 <? level) = false
              /\ (r =? cRangeOpen)%Z = false /\ (r =? cSingle)%Z = false /\ (r =? cAny)%Z = false).
  { destruct I as [I| ->]; [|repeat split; reflexivity]. rewrite !Z.eqb_neq. rewrite A. unfold special_in in I.
    assert (X : forall c, In c [cSingle; cAny; cRangeOpen; cTermsOpen] -> r <> c) by (intros c Ic ->; apply I, in_or_app; left; exact Ic).
    repeat split; try (apply X; cbn; tauto).
    - destruct a; [|apply andb_false_r]. rewrite andb_true_r. apply Z.eqb_neq. intros ->. apply I, in_or_app. right. cbn. tauto.
    - destruct a; [|apply andb_false_r]. rewrite andb_true_r. apply Z.eqb_neq. intros ->. apply I, in_or_app. right. cbn. tauto. }
  destruct D as [-> [-> [-> [-> [-> ->]]]]]. rewrite (proj2 (Z.eqb_neq r 0)) by exact N0. rewrite (special_breakers a level A). auto.
Qed.
Lemma run_bad_rest level t cur stk : bad_rest t -> run level t cur stk = OError m_rune.
Proof.
  intros [U|[u [-> U]]].
  - apply unreadable_read in U. rewrite run_bad by (unfold fetchItem; rewrite U; reflexivity). unfold item_msg. rewrite U. reflexivity.
  - destruct (text_item (0 <? level) level cEscape (cEscape :: u) eq_refl) as [F M]; [exists u; apply read_ascii; unfold cEscape; lia|discriminate|auto|].
    rewrite run_bad, M; [reflexivity|]. rewrite F. unfold text.
    pose proof (fetchText_unreadable (special_in (0 <? level)) (special_in (0 <? level)) [] [] ltac:(constructor) (fun c H => H) (S (length (cEscape :: u))) (cEscape :: u) [] (or_intror (ex_intro _ u (conj eq_refl U)))) as Q.
    cbn [app] in Q. rewrite Q by lia. reflexivity.
Qed.
Definition after2 (a : bool) (rest : str) : Prop :=
  bad_rest rest \/ (exists r, rest = cRangeOpen :: r \/ rest = cTermsOpen :: r) \/ (a = true /\ exists r, rest = cComma :: r \/ rest = cTermsClose :: r).
Lemma after2_text a rest : after2 a rest -> stops (special_in a) rest \/ bad_rest rest.
Proof.
  intros [B|[[r [-> | ->]]|[-> [r [-> | ->]]]]]; [right; exact B|left|left|left|left]; right; eexists _, r; (split; [reflexivity|]);
    unfold special_in, cTermsOpen, cComma, cTermsClose, cEscape, cSingle, cAny, cRangeOpen; (split; [lia|]); split; try lia; cbn [app In]; tauto.
Qed.
Lemma unreadable_head b t : unreadable (b :: t) -> ~ (0 < b < 128)%Z.
Proof. intros U B. apply unreadable_read in U. rewrite read_ascii in U by exact B. discriminate. Qed.
Lemma after2_any a rest : after2 a rest -> HasPrefix rest [cAny] = false.
Proof.
  intros [[U|[u [-> _]]]|[[r [-> | ->]]|[-> [r [-> | ->]]]]]; try reflexivity. destruct rest as [|b t]; [reflexivity|]. destruct (HasPrefix (b :: t) [cAny]) eqn:E; [|reflexivity].
  apply HasPrefix_iff in E. destruct E as [x E]. injection E as -> _. elim (unreadable_head _ _ U). unfold cAny. lia.
Qed.
Lemma run_any level rest cur stk : HasPrefix rest [cAny] = false -> good rest -> run level (cAny :: rest) cur stk = run level rest (NAny :: cur) stk.
Proof.
  intros H G. assert (F : fetchItem level (cAny :: rest) = match read rest with None => None | Some (r2, s2) => if (r2 =? cAny)%Z then Some ([TSuper], level, s2) else Some ([TAny], level, rest) end /\ item_msg (cAny :: rest) = m_rune).
  { unfold fetchItem, item_msg. rewrite read_ascii by (unfold cAny; lia). cbn [Z.eqb cRangeOpen cTermsOpen cComma cTermsClose cSingle cAny Pos.eqb andb]. auto. }
  destruct F as [F M]. destruct (read rest) as [[r2 s2]|] eqn:R.
  - destruct (Z.eqb_spec r2 cAny) as [->|N].
    + assert (NE : rest <> []) by (intros ->; discriminate R). destruct (read_inv _ _ _ G R NE) as [_ E]. rewrite E in H. discriminate H.
    + rewrite (run_item _ _ _ _ _ _ _ F) by discriminate. reflexivity.
  - rewrite run_bad, M by exact F. symmetry. apply run_bad_rest. left. apply unreadable_read, R.
Qed.
Lemma run_one c level level' rest t cur stk : (0 < c < 128)%Z -> fetchItem level (c :: rest) = Some ([t], level', rest) -> t <> TEOF ->
  run level (c :: rest) cur stk = parseM (item_msg (Stuck level' rest)) (t :: Lx level' rest) None cur stk.
Proof. intros B F N. rewrite (run_item _ _ _ _ _ _ _ F); [reflexivity|]. intros Q. injection Q as ->. contradiction. Qed.
Ltac one := unfold fetchItem; rewrite read_ascii by (unfold cAny, cSingle, cTermsOpen, cTermsClose, cComma; lia); cbn [Z.eqb cRangeOpen cTermsOpen cComma cTermsClose cSingle cAny Pos.eqb andb Nat.ltb Nat.leb].
Lemma run_super level rest cur stk : run level (cAny :: cAny :: rest) cur stk = run level rest (NSuper :: cur) stk.
Proof. assert (F : fetchItem level (cAny :: cAny :: rest) = Some ([TSuper], level, rest)) by (one; rewrite read_ascii by (unfold cAny; lia); reflexivity). rewrite (run_item _ _ _ _ _ _ _ F) by discriminate. reflexivity. Qed.
Lemma run_single level rest cur stk : run level (cSingle :: rest) cur stk = run level rest (NSingle :: cur) stk.
Proof. assert (F : fetchItem level (cSingle :: rest) = Some ([TSingle], level, rest)) by (one; reflexivity). rewrite (run_item _ _ _ _ _ _ _ F) by discriminate. reflexivity. Qed.
Lemma run_open_br level rest cur stk : run level (cTermsOpen :: rest) cur stk = run (S level) rest [] (([], cur) :: stk).
Proof. assert (F : fetchItem level (cTermsOpen :: rest) = Some ([TOpen], S level, rest)) by (one; reflexivity). rewrite (run_item _ _ _ _ _ _ _ F) by discriminate. reflexivity. Qed.
Lemma run_sep level rest cur alts up stk : run (S level) (cComma :: rest) cur ((alts, up) :: stk) = run (S level) rest [] ((NPattern (rev cur) :: alts, up) :: stk).
Proof. assert (F : fetchItem (S level) (cComma :: rest) = Some ([TSep], S level, rest)) by (one; reflexivity). rewrite (run_item _ _ _ _ _ _ _ F) by discriminate. reflexivity. Qed.
Lemma run_close level rest cur alts up stk : run (S level) (cTermsClose :: rest) cur ((alts, up) :: stk) = run level rest (NAnyOf (rev (NPattern (rev cur) :: alts)) :: up) stk.
Proof. assert (F : fetchItem (S level) (cTermsClose :: rest) = Some ([TClose], level, rest)) by (one; rewrite Nat.sub_succ, Nat.sub_0_r; reflexivity). rewrite (run_item _ _ _ _ _ _ _ F) by discriminate. reflexivity. Qed.
Lemma run_text a level cs s rest cur stk : (0 <? level) = a -> writes_text (special_in a) cs s -> cs <> [] -> stops (special_in a) rest \/ bad_rest rest ->
  run level (s ++ rest) cur stk = run level rest (NText (utf8 cs) :: cur) stk.
Proof.
  intros A W N St. destruct (first_rune_text _ _ _ rest W N) as [r [s1 [R [N0 I]]]]. destruct (text_item a level r (s ++ rest) A (ex_intro _ s1 R) N0 I) as [F M]. destruct St as [St|B].
  - rewrite (text_writes _ _ cs s rest W (fun c H => H) St) in F. destruct cs as [|c cs]; [contradiction|]. rewrite (run_item _ _ _ _ _ _ _ F) by discriminate. reflexivity.
  - rewrite (run_bad_rest level rest) by exact B. rewrite run_bad, M; [reflexivity|]. rewrite F. unfold text. rewrite (fetchText_unreadable _ _ cs s W (fun c H => H)); [reflexivity|exact B|lia].
Qed.
Lemma run_class level not n s rest cur stk : good (s ++ cRangeClose :: rest) -> class_of not n s -> run level (cRangeOpen :: mark not ++ s ++ cRangeClose :: rest) cur stk = run level rest (n :: cur) stk.
Proof.
  intros G C. destruct (open_item level (mark not ++ s ++ cRangeClose :: rest)) as [F _]. destruct C as [lo hi Wl Wh Le NN|cs x N W H1 H2].
  - destruct (mark_range not (encode lo ++ cBetween :: encode hi ++ cRangeClose :: rest)) as [FR _].
    + rewrite <- !app_assoc in G. exact G.
    + intros E. specialize (NN E). apply hp1; [unfold cRangeNot; lia|]. rewrite read_rune by exact Wl. intros ? ? X. injection X as <- _. exact NN.
    + rewrite range_rest_range in FR by assumption. rewrite <- !app_assoc in *. cbn [app] in *. rewrite FR in F. rewrite (run_item _ _ _ _ _ _ _ F) by discriminate.
      destruct (Wl) as [_ [Nl _]]. destruct (Wh) as [_ [Nh _]].
      destruct not; cbn [app parseM]; rewrite (decode_writable lo Wl), (decode_writable hi Wh), !Nat.ltb_irrefl; cbn [rlo rhi rnot rchars rstart]; rewrite (proj2 (Z.ltb_ge hi lo) Le);
        cbn [rlo rhi rnot rchars]; rewrite (proj2 (Z.eqb_neq lo 0)) by exact Nl; rewrite (proj2 (Z.eqb_neq hi 0)) by exact Nh; reflexivity.
  - destruct (mark_range not (x ++ cRangeClose :: rest) G) as [FR _].
    + intros E. specialize (H1 E). destruct x as [|b x]; [reflexivity|]. exact H1.
    + rewrite (range_rest_text cs x rest N W H2) in FR. rewrite FR in F. rewrite (run_item _ _ _ _ _ _ _ F) by discriminate. assert (U : eqs (utf8 cs) [] = false) by (apply eqs_nonempty, utf8_nonempty, N).
      destruct not; cbn [app parseM rchars rlo rhi rnot rstart Z.eqb negb andb]; rewrite U; reflexivity.
Qed.
Lemma run_terms : forall a ns s, terms_of a ns s -> forall level rest cur stk, good (s ++ rest) -> (0 <? level) = a -> after2 a rest ->
  run level (s ++ rest) cur stk = run level rest (rev ns ++ cur) stk.
Proof.
  apply (terms_of_mut
    (fun a n s => forall level rest cur stk, good (s ++ rest) -> (0 <? level) = a -> (forall t, n = NText t -> stops (special_in a) rest \/ bad_rest rest) -> (n = NAny -> HasPrefix rest [cAny] = false) ->
        run level (s ++ rest) cur stk = run level rest (n :: cur) stk)
    (fun a ns s => forall level rest cur stk, good (s ++ rest) -> (0 <? level) = a -> after2 a rest -> run level (s ++ rest) cur stk = run level rest (rev ns ++ cur) stk)
    (fun ns s => forall level rest alts up stk, good (s ++ cTermsClose :: rest) ->
        run (S level) (s ++ cTermsClose :: rest) [] ((alts, up) :: stk) = run level rest (NAnyOf (rev alts ++ ns) :: up) stk)).
  - intros a cs s N W level rest cur stk G A St _. apply (run_text a); [exact A|exact W|exact N|exact (St _ eq_refl)].
  - intros a level rest cur stk G A _ H. apply run_any; [apply H; reflexivity|]. apply good_app in G. tauto.
  - intros a level rest cur stk G A _ _. apply run_super.
  - intros a level rest cur stk G A _ _. apply run_single.
  - intros a not n s C level rest cur stk G A _ _. cbn [app] in *. rewrite <- !app_assoc in *. cbn [app] in *. apply run_class; [|exact C].
    change (cRangeOpen :: mark not ++ s ++ cRangeClose :: rest) with ([cRangeOpen] ++ mark not ++ s ++ cRangeClose :: rest) in G. apply good_app in G. destruct G as [_ G]. apply good_app in G. tauto.
  - intros a ns s W IH level rest cur stk G A _ _. cbn [app] in *. rewrite <- app_assoc in *. cbn [app] in *. rewrite run_open_br, IH; [reflexivity|]. change (cTermsOpen :: s ++ cTermsClose :: rest) with ([cTermsOpen] ++ s ++ cTermsClose :: rest) in G. apply good_app in G. tauto.
  - reflexivity.
  - intros a n ns s t Wn IHn Ap Wt IHt level rest cur stk G A E. rewrite <- app_assoc in *. assert (G' := G). apply good_app in G'. destruct G' as [_ G']. rewrite IHn; [|exact G|exact A| |].
    + rewrite IHt by assumption. cbn [rev]. rewrite <- app_assoc. reflexivity.
    + intros x ->. inversion Wt as [|a' n' ns' s' t' Wn' Ap' Wt']; subst; [apply after2_text, E|]. left. rewrite <- app_assoc. eapply term_stops; [exact Wn'|]. intros y ->. exact Ap.
    + intros ->. inversion Wt as [|a' n' ns' s' t' Wn' Ap' Wt']; subst; [eapply after2_any, E|]. rewrite <- app_assoc. eapply term_any; [exact Wn'| |]; intros ->; exact Ap.
  - intros ns s W IH level rest alts up stk G. rewrite IH; [|exact G|reflexivity|right; right; split; [reflexivity|exists rest; auto]]. rewrite app_nil_r, run_close. cbn [rev]. rewrite rev_involutive. reflexivity.
  - intros ns tl s t W IH Wt IHt level rest alts up stk G. rewrite <- !app_assoc in *. cbn [app] in *. rewrite IH; [|exact G|reflexivity|right; right; split; [reflexivity|eexists; left; reflexivity]].
    rewrite app_nil_r, run_sep. rewrite rev_involutive, IHt; [cbn [rev]; rewrite <- app_assoc; reflexivity|]. apply good_app in G. destruct G as [_ G]. change (cComma :: t ++ cTermsClose :: rest) with ([cComma] ++ t ++ cTermsClose :: rest) in G. apply good_app in G. tauto.
Qed.
Lemma run_open_terms : forall a ns s, open_terms a ns s -> forall rest cur stk, good (s ++ rest) -> (0 <? length stk) = a -> bad_rest rest \/ (exists r, rest = cRangeOpen :: r) ->
  exists cur' stk', run (length stk) (s ++ rest) cur stk = run (length stk') rest cur' stk'.
Proof.
  apply (open_terms_mut
    (fun a ns s => forall rest cur stk, good (s ++ rest) -> (0 <? length stk) = a -> bad_rest rest \/ (exists r, rest = cRangeOpen :: r) -> exists cur' stk', run (length stk) (s ++ rest) cur stk = run (length stk') rest cur' stk')
    (fun ns s => forall rest alts up stk, good (s ++ rest) -> bad_rest rest \/ (exists r, rest = cRangeOpen :: r) -> exists cur' stk', run (S (length stk)) (s ++ rest) [] ((alts, up) :: stk) = run (length stk') rest cur' stk')).
  - intros a ns s T0 rest cur stk G A E. exists (rev ns ++ cur), stk. apply (run_terms a); [exact T0|exact G|exact A|]. destruct E as [E|[r ->]]; [left; exact E|right; left; eauto].
  - intros a ns alts s t T0 O IH rest cur stk G A E. rewrite <- !app_assoc in *. rewrite (run_terms a ns s T0 (length stk) _ cur stk G A) by (right; left; eexists; right; reflexivity). cbn [app]. rewrite run_open_br.
    apply IH; [|exact E]. apply good_app in G. destruct G as [_ G]. apply good_app in G. tauto.
  - intros ns s O IH rest alts up stk G E. apply (IH rest [] ((alts, up) :: stk) G eq_refl E).
  - intros ns al s t T0 O IH rest alts up stk G E. rewrite <- !app_assoc in *. rewrite (run_terms true ns s T0 (S (length stk)) _ [] ((alts, up) :: stk) G eq_refl) by (right; right; split; [reflexivity|eexists; left; reflexivity]). cbn [app]. rewrite run_sep.
    apply IH; [|exact E]. apply good_app in G. destruct G as [_ G]. apply good_app in G. tauto.
Qed.
Lemma refused_run p m : good p -> refused p m -> run 0 p [] [] = OError m.
Proof.
  intros G [ns [s [O [[-> [t [U E]]]|[not [v [E [H B]]]]]]]].
  - assert (exists t', p = s ++ t' /\ bad_rest t') as [t' [E' B']]. { destruct E as [->| ->]; [exists t|exists ([cEscape] ++ t)]; (split; [reflexivity|]); [left; exact U|right; exists t; auto]. }
    subst p. destruct (run_open_terms _ _ _ O t' [] [] G eq_refl (or_introl B')) as [cur' [stk' Q]]. cbn [length] in Q. rewrite Q. apply run_bad_rest, B'.
  - subst p. destruct (run_open_terms _ _ _ O _ [] [] G eq_refl (or_intror (ex_intro _ (mark not ++ v) eq_refl))) as [cur' [stk' Q]]. cbn [length] in Q. rewrite Q. apply run_bad_class; [|exact H|exact B].
    rewrite !good_app in G. tauto.
Qed.
(** ** What stands before the point where the parser gives up *)
Inductive Rp : nat -> str -> Prop :=
  | Rp_end level : Rp level []
  | Rp_term level n y s : term_of (0 <? level) n y -> match n with NText _ => stops (special_in (0 <? level)) s | NAny => HasPrefix s [cAny] = false | _ => True end -> Rp level s -> Rp level (y ++ s)
  | Rp_open level s : Rp (S level) s -> Rp level (cTermsOpen :: s)
  | Rp_sep level s : Rp (S level) s -> Rp (S level) (cComma :: s)
  | Rp_close level s : Rp level s -> Rp (S level) (cTermsClose :: s).
Fixpoint Gp (level : nat) (s : str) : Prop :=
  match level with
  | O => exists ns, open_terms false ns s
  | S l => (exists al, open_alts al s) \/ exists al x s2, alts_of al x /\ s = x ++ cTermsClose :: s2 /\ Gp l s2
  end.
Lemma alts_nonempty al x : alts_of al x -> exists ns rest, al = NPattern ns :: rest.
Proof. intros O. inversion O; eauto. Qed.
Lemma Gp_term level n y s : term_of (0 <? level) n y -> follows (0 <? level) n s -> Gp level s -> Gp level (y ++ s).
Proof.
  intros T0 F H. destruct level as [|l]; cbn [Gp] in *.
  - destruct H as [ns O]. exists (n :: ns). apply (open_cons false n ns y s []); [exact T0|exact O|rewrite app_nil_r; exact F].
  - destruct H as [[al O]|[al [x [s2 [O [-> H]]]]]].
    + left. destruct (open_nonempty _ _ O) as [ns [rest ->]]. exists (NPattern (n :: ns) :: rest). apply (oalts_cons n ns rest y s []); [exact T0|exact O|rewrite app_nil_r; exact F].
    + right. destruct (alts_nonempty _ _ O) as [ns [rest ->]]. exists (NPattern (n :: ns) :: rest), (y ++ x), s2. split; [exact (alts_cons n ns rest y x (cTermsClose :: s2) T0 O F)|]. split; [rewrite app_assoc; reflexivity|exact H].
Qed.
Lemma Rp_Gp level s : Rp level s -> Gp level s.
Proof.
  induction 1 as [level|level n y s T0 F H IH|level s H IH|level s H IH|level s H IH].
  - destruct level as [|l]; cbn [Gp]; [exists []; apply ot_done, ts_nil|left; exists [NPattern []]; apply oa_last, ot_done, ts_nil].
  - apply Gp_term with n; [exact T0| |exact IH]. destruct n; try exact I; [left; exact F|exact F].
  - cbn [Gp] in IH. destruct IH as [[al O]|[al [x [s2 [O [-> H']]]]]].
    + assert (OT : forall a, open_terms a [NAnyOf al] (cTermsOpen :: s)) by (intros a; apply (ot_open a [] _ []); [constructor|exact O]).
      destruct level as [|l]; cbn [Gp]; [eexists; apply OT|left; eexists; apply oa_last, OT].
    + replace (cTermsOpen :: x ++ cTermsClose :: s2) with (([cTermsOpen] ++ x ++ [cTermsClose]) ++ s2) by (rewrite <- !app_assoc; reflexivity). apply (Gp_term level (NAnyOf al)); [apply to_anyof, O|exact I|exact H'].
  - cbn [Gp] in IH |- *. destruct IH as [[al O]|[al [x [s2 [O [-> H']]]]]].
    + left. exists (NPattern [] :: al). apply (oa_cons [] _ [] s); [constructor|exact O].
    + right. exists (NPattern [] :: al), (cComma :: x), s2. split; [apply (al_cons [] _ [] x); [constructor|exact O]|]. split; [reflexivity|exact H'].
  - cbn [Gp]. right. exists [NPattern []], [], s. split; [apply al_one; constructor|]. split; [reflexivity|exact IH].
Qed.
Definition Bad (rest m : str) : Prop := (m = m_rune /\ bad_rest rest) \/ exists not v, rest = cRangeOpen :: mark not ++ v /\ (not = false -> HasPrefix v [cRangeNot] = false) /\ bad_class v m.
Definition Fp (level : nat) (s m : str) : Prop := exists q rest, s = q ++ rest /\ Rp level q /\ Bad rest m.
Lemma Fp_now level s m : Bad s m -> Fp level s m.
Proof. intros B. exists [], s. split; [reflexivity|]. split; [constructor|exact B]. Qed.
Lemma Fp_term level n y s m : term_of (0 <? level) n y -> match n with NText _ => stops (special_in (0 <? level)) s | NAny => HasPrefix s [cAny] = false | _ => True end -> Fp level s m -> Fp level (y ++ s) m.
Proof.
  intros T0 F [q [rest [-> [Q B]]]]. exists (y ++ q), rest. split; [apply app_assoc|]. split; [|exact B]. apply Rp_term with n; [exact T0| |exact Q].
  destruct n; try exact I.
  - destruct q as [|c q]; [left; reflexivity|]. destruct F as [F|[c' [r [F G]]]]; [discriminate|]. cbn [app] in F. injection F as <- _. right. exists c, q. split; [reflexivity|exact G].
  - destruct q as [|c q]; [reflexivity|]. exact F.
Qed.
Lemma Fp_cons level level' c s m : (forall q, Rp level' q -> Rp level (c :: q)) -> Fp level' s m -> Fp level (c :: s) m.
Proof. intros H [q [rest [-> [Q B]]]]. exists (c :: q), rest. split; [reflexivity|]. split; [apply H, Q|exact B]. Qed.
(** A class the tokens of which can be read: a good one, or refused by the parser. *)
Lemma class_read not v ts rest : good v -> (not = false -> HasPrefix v [cRangeNot] = false) -> range_rest v = Some (ts, rest) ->
  (exists m, bad_class v m) \/ exists n x, class_of not n x /\ v = x ++ cRangeClose :: rest.
Proof.
  intros G H F. destruct (range_rest_inv _ _ _ G F) as [[lo [hi [Wl [Wh [E ->]]]]]|[cs [x [W [SH [E ->]]]]]].
  - destruct (Z.lt_ge_cases hi lo) as [Lt|Le]; [left; exists (m_order hi lo); rewrite E; apply bc_order; assumption|]. right. exists (NRange not lo hi), (encode lo ++ [cBetween] ++ encode hi).
    split; [|rewrite E, <- !app_assoc; reflexivity]. constructor; try assumption. intros EN ->. specialize (H EN). rewrite E in H. discriminate H.
  - destruct cs as [|c cs].
    + left. inversion W; subst x. cbn [app] in E. exists m_range. rewrite E. apply (bc_empty rest).
      * intros U. apply unreadable_read in U. rewrite E in F. unfold range_rest in F. rewrite read_ascii in F by (unfold cRangeClose; lia). rewrite U in F. cbn in F. discriminate F.
      * destruct (HasPrefix rest [cBetween]) eqn:Q; [|reflexivity]. exfalso. destruct (hp_read cBetween rest ltac:(unfold cBetween; lia) Q) as [s1 [_ R1]]. rewrite E in F. unfold range_rest in F. rewrite read_ascii in F by (unfold cRangeClose; lia). rewrite R1 in F. cbn [cRangeClose Z.eqb] in F. rewrite Z.eqb_refl in F.
        destruct (read s1) as [[hi s3]|]; [|discriminate]. destruct (hi =? 0)%Z; [discriminate|]. destruct (read s3) as [[c s4]|]; [|discriminate]. destruct (c =? cRangeClose)%Z; discriminate F.
    + right. exists (NList not (utf8 (c :: cs))), x. split; [|exact E]. apply co_list; [discriminate|exact W| |exact SH]. intros EN. specialize (H EN). rewrite E in H. destruct x as [|b x]; [reflexivity|]. exact H.
Qed.
Lemma run_Fp k : forall s cur stk m, length s < k -> good s -> run (length stk) s cur stk = OError m -> Fp (length stk) s m.
Proof.
  induction k as [|k IH]; intros s cur stk m L G P; [lia|]. destruct (read s) as [[r s1]|] eqn:R1.
  2:{ assert (B : bad_rest s) by (left; apply unreadable_read, R1). rewrite run_bad_rest in P by exact B. injection P as <-. apply Fp_now. left. auto. }
  destruct (Z.eqb_spec r 0) as [->|N0]. { destruct (read_zero _ _ G R1) as [-> ->]. rewrite (run_eof _ _ _ _ (length stk) []) in P by reflexivity. discriminate. }
  assert (NE : s <> []) by (intros ->; cbn in R1; injection R1 as <- _; contradiction). destruct (read_inv _ _ _ G R1 NE) as [W E]. pose proof (encode_length r) as LE.
  assert (G1 : good s1) by (rewrite E in G; apply good_app in G; tauto). assert (L1 : length s1 < k) by (rewrite E, app_length in L; lia).
  assert (A : forall c, r = c -> (0 < c < 128)%Z -> s = c :: s1) by (intros c -> Bc; rewrite E, encode_ascii by lia; reflexivity).
  destruct (Z.eqb_spec r cTermsOpen) as [Er|N1].
  { pose proof (A _ Er ltac:(unfold cTermsOpen; lia)) as ->. rewrite run_open_br in P. apply Fp_cons with (S (length stk)); [constructor; assumption|]. apply (IH s1 [] (([], cur) :: stk) m L1 G1 P). }
  destruct ((r =? cComma)%Z && (0 <? length stk)) eqn:N2.
  { apply andb_true_iff in N2. destruct N2 as [Er Ls]. apply Z.eqb_eq in Er. pose proof (A _ Er ltac:(unfold cComma; lia)) as ->. destruct stk as [|[alts up] stk]; [discriminate Ls|]. cbn [length] in *. rewrite run_sep in P.
    apply Fp_cons with (S (length stk)); [constructor; assumption|]. apply (IH s1 _ ((NPattern (rev cur) :: alts, up) :: stk) m L1 G1 P). }
  destruct ((r =? cTermsClose)%Z && (0 <? length stk)) eqn:N3.
  { apply andb_true_iff in N3. destruct N3 as [Er Ls]. apply Z.eqb_eq in Er. pose proof (A _ Er ltac:(unfold cTermsClose; lia)) as ->. destruct stk as [|[alts up] stk]; [discriminate Ls|]. cbn [length] in *. rewrite run_close in P.
    apply Fp_cons with (length stk); [constructor; assumption|]. apply (IH s1 _ stk m L1 G1 P). }
  destruct (Z.eqb_spec r cRangeOpen) as [Er|N4].
  { pose proof (A _ Er ltac:(unfold cRangeOpen; lia)) as ->. assert (exists not v, s1 = mark not ++ v /\ (not = false -> HasPrefix v [cRangeNot] = false)) as [not [v [-> H]]].
    { destruct (HasPrefix s1 [cRangeNot]) eqn:Q; [|exists false, s1; auto]. apply HasPrefix_iff in Q. destruct Q as [v ->]. exists true, v. split; [reflexivity|discriminate]. }
    assert (Gv : good v) by (apply good_app in G1; tauto).
    assert (C : (exists m', bad_class v m') \/ exists n x rest, class_of not n x /\ v = x ++ cRangeClose :: rest).
    { destruct (range_rest v) as [[ts rest]|] eqn:F; [|left; eexists; apply rest_msg_bad; assumption]. destruct (class_read not v ts rest Gv H F) as [C|[n [x C]]]; [left; exact C|right; eauto]. }
    destruct C as [[m' B]|[n [x [rest [C ->]]]]].
    - rewrite (run_bad_class _ not v m') in P by assumption. injection P as <-. apply Fp_now. right. exists not, v. auto.
    - rewrite (run_class _ not n x rest) in P by assumption. replace (cRangeOpen :: mark not ++ x ++ cRangeClose :: rest) with (([cRangeOpen] ++ mark not ++ x ++ [cRangeClose]) ++ rest) by (cbn [app]; rewrite <- !app_assoc; reflexivity).
      apply Fp_term with n; [apply to_class, C|destruct C; exact I|]. rewrite !app_length in L1. cbn [length] in L1. apply (IH rest _ stk m ltac:(lia)) in P; [exact P|]. apply good_app in Gv. destruct Gv as [_ Gv]. change (cRangeClose :: rest) with ([cRangeClose] ++ rest) in Gv. apply good_app in Gv. tauto. }
  destruct (Z.eqb_spec r cSingle) as [Er|N5]. { pose proof (A _ Er ltac:(unfold cSingle; lia)) as ->. rewrite run_single in P. apply (Fp_term _ NSingle [cSingle]); [constructor|exact I|]. apply (IH s1 _ stk m L1 G1 P). }
  destruct (Z.eqb_spec r cAny) as [Er|N6].
  { pose proof (A _ Er ltac:(unfold cAny; lia)) as ->. destruct (HasPrefix s1 [cAny]) eqn:Q.
    - apply HasPrefix_iff in Q. destruct Q as [s2 ->]. cbn [app] in *. rewrite run_super in P. apply (Fp_term _ NSuper [cAny; cAny]); [constructor|exact I|]. cbn [length] in L1. apply (IH s2 _ stk m ltac:(lia)) in P; [exact P|]. change (cAny :: s2) with ([cAny] ++ s2) in G1. apply good_app in G1. tauto.
    - rewrite run_any in P by assumption. apply (Fp_term _ NAny [cAny]); [constructor|exact Q|]. apply (IH s1 _ stk m L1 G1 P). }
  assert (NI : ~ In r (special_in (0 <? length stk))).
  { unfold special_in. intros I. apply in_app_or in I. destruct I as [I|I].
    - cbn [In] in I. intuition congruence.
    - destruct (0 <? length stk); [|destruct I]. cbn [In] in I. rewrite andb_true_r in N2, N3. apply Z.eqb_neq in N2, N3. intuition congruence. }
  destruct (text_item (0 <? length stk) (length stk) r s eq_refl (ex_intro _ s1 R1) N0 (or_introl NI)) as [F M].
  destruct (text (special_in (0 <? length stk)) s) as [[d s2]|] eqn:T0.
  - pose proof (text_shorter _ _ _ _ _ _ R1 N0 (existsb_eqb_notin _ _ NI) T0) as LT. destruct (text_inv _ _ _ _ (special_plain _) G T0) as [x [Wx [[Es St]|[Es ->]]]].
    + assert (d <> []). { intros ->. inversion Wx; subst x. cbn [app] in Es. subst s2. lia. }
      rewrite Es in P, G |- *. rewrite (run_text (0 <? length stk) (length stk) d x s2) in P by auto. apply (Fp_term _ (NText (utf8 d)) x); [constructor; assumption|exact St|]. apply (IH s2 _ stk m ltac:(lia)) in P; [exact P|]. apply good_app in G. tauto.
    + exfalso. destruct d as [|c d]; [rewrite (run_item _ _ _ _ _ _ _ F) in P by discriminate; discriminate P|]. rewrite (run_item _ _ _ _ _ _ _ F) in P by discriminate. discriminate P.
  - rewrite run_bad, M in P by exact F. injection P as <-. destruct (text_none_inv _ _ (special_plain _) G T0) as [cs [x [t [Wx [-> Bt]]]]]. destruct cs as [|c cs]; [inversion Wx; subst x; apply Fp_now; left; auto|].
    exists x, t. split; [reflexivity|]. split; [|left; auto]. rewrite <- (app_nil_r x). apply Rp_term with (NText (utf8 (c :: cs))); [constructor; [discriminate|exact Wx]|left; reflexivity|constructor].
Qed.
Lemma run_refused p m : good p -> run 0 p [] [] = OError m -> refused p m.
Proof.
  intros G P. destruct (run_Fp (S (length p)) p [] [] m ltac:(lia) G P) as [q [rest [-> [Q B]]]]. apply Rp_Gp in Q. cbn [Gp length] in Q. destruct Q as [ns O]. exists ns, q. split; [exact O|].
  destruct B as [[-> [U|[u [-> U]]]]|[not [v [-> [H B]]]]].
  - left. split; [reflexivity|]. exists rest. auto.
  - left. split; [reflexivity|]. exists u. auto.
  - right. exists not, v. auto.
Qed.

(** ** The only texts *)
Lemma decode_encode_any a : (snd (decode (encode a)) <? length (encode a)) = false.
Proof.
  destruct (Z.eq_dec a 0) as [->|N0]; [reflexivity|]. assert (V : valid_rune a \/ encode a = encode RuneError).
  { unfold encode at 1. unfold valid_rune. destruct ((a <? 0)%Z || (a >? 1114111)%Z || surrogate a) eqn:Q; [right; reflexivity|left].
    apply orb_false_iff in Q. destruct Q as [Q Sg]. apply orb_false_iff in Q. destruct Q as [Q1 Q2]. apply Z.ltb_ge in Q1. rewrite Z.gtb_ltb in Q2. apply Z.ltb_ge in Q2. split; [lia|exact Sg]. }
  destruct V as [V|V]; [|rewrite V; reflexivity]. destruct (Z.eq_dec a RuneError) as [->|NR]; [reflexivity|]. rewrite decode_writable by (repeat split; try assumption; apply V). apply Nat.ltb_irrefl.
Qed.
Definition known (m : str) : Prop := m = m_rune \/ m = m_end \/ m = m_close \/ m = m_range \/ exists hi lo, (hi < lo)%Z /\ m = m_order hi lo.
Lemma item_msg_known s : known (item_msg s).
Proof.
  assert (C : forall t, known (close_msg t)) by (intros t; unfold close_msg, known; destruct (read t) as [[c u]|]; [destruct (c =? 0)%Z|]; auto).
  assert (R : forall t, known (rest_msg t)).
  { intros t. unfold rest_msg. destruct (read t) as [[r s1]|]; [|unfold known; auto]. destruct (r =? 0)%Z; [unfold known; auto|]. destruct (read s1) as [[n s2]|]; [|destruct (r =? cRangeClose)%Z; unfold known; auto].
    destruct (n =? cBetween)%Z.
    - destruct (read s2) as [[hi s3]|]; [|unfold known; auto]. destruct (hi =? 0)%Z; [unfold known; auto|apply C].
    - destruct (text [cRangeClose] t) as [[d s3]|]; [apply C|unfold known; auto]. }
  unfold item_msg, range_msg. destruct (read s) as [[r s1]|]; [|unfold known; auto]. destruct (r =? cRangeOpen)%Z; [|unfold known; auto]. destruct (read s1) as [[r2 s2]|]; [|unfold known; auto].
  destruct (r2 =? cRangeNot)%Z; apply R.
Qed.
Lemma parseM_class m ts k cur stk : range_toks ts -> (exists m', known m' /\ parseM m (ts ++ k) None cur stk = OError m') \/ exists n, parseM m (ts ++ k) None cur stk = parseM m k None (n :: cur) stk.
Proof.
  intros [pre [post [Hp [-> Hq]]]].
  assert (B : forall not, (exists m', known m' /\ parseM m ((post ++ [TRangeClose]) ++ k) (Some {| rnot := not; rlo := 0; rhi := 0; rchars := [] |}) cur stk = OError m')
      \/ exists n, parseM m ((post ++ [TRangeClose]) ++ k) (Some {| rnot := not; rlo := 0; rhi := 0; rchars := [] |}) cur stk = parseM m k None (n :: cur) stk).
  { intros not. destruct Hq as [[a [b ->]]|[d ->]].
    - cbn [app parseM]. pose proof (decode_encode_any a) as Wa. pose proof (decode_encode_any b) as Wb. destruct (decode (encode a)) as [ra wa]. destruct (decode (encode b)) as [rb wb]. cbn [snd] in Wa, Wb. rewrite Wa, Wb. cbn [rlo rhi rnot rchars].
      destruct (Z.ltb_spec rb ra) as [Lt|Ge]; [left; eexists; split; [|reflexivity]; unfold known; eauto 8|]. destruct (Bool.eqb _ _); [left; eexists; split; [|reflexivity]; unfold known; auto|right; eexists; reflexivity].
    - destruct d as [|c d]; cbn [text_tok app parseM rlo rhi rnot rchars]; (destruct (Bool.eqb _ _); [left; eexists; split; [|reflexivity]; unfold known; auto|right; eexists; reflexivity]). }
  destruct Hp as [-> | ->]; cbn [app parseM].
  - exact (B false).
  - exact (B true).
Qed.
Lemma parseM_known m k : known m -> forall level s cur stk m', length s < k -> parseM m (Lx level s) None cur stk = OError m' -> known m'.
Proof.
  intros Hm. induction k as [|k IH]; intros level s cur stk m' L P; [lia|]. destruct (Lx_cases level s) as [E|[E|[ts [lv [s' [I [G E]]]]]]]; rewrite E in P.
  - injection P as <-. exact Hm.
  - discriminate.
  - unfold item in I. destruct I as [[-> _]|[[-> _]|[[-> _]|[[A _]|[[-> _]|[[-> _]|[[-> _]|[[d ->] _]]]]]]]].
    + (eapply IH; [|exact P]; lia).
    + cbn [app parseM] in P. destruct stk as [|[alts up] stk]; [discriminate|]. (eapply IH; [|exact P]; lia).
    + cbn [app parseM] in P. destruct stk as [|[alts up] stk]; [discriminate|]. (eapply IH; [|exact P]; lia).
    + destruct (parseM_class m ts (Lx lv s') cur stk A) as [[m2 [K Q]]|[n Q]]; rewrite Q in P; [injection P as <-; exact K|]. (eapply IH; [|exact P]; lia).
    + (eapply IH; [|exact P]; lia).
    + (eapply IH; [|exact P]; lia).
    + (eapply IH; [|exact P]; lia).
    + destruct d as [|c d]; (eapply IH; [|exact P]; lia).
Qed.

(** ** The tokens one by one *)
Fixpoint nexts (big k : nat) (l : lexer) : option (list Token) :=
  match k with
  | O => Some []
  | S k' => match Next big big l with Done t l' => option_map (cons t) (nexts big k' l') | _ => None end
  end.
Definition tokm (m : str) (t : Tok) : Token := match t with TError => T KError m | _ => tok t end.
Lemma nexts_error big k m : forall l, err l = Some m -> nexts big k l = Some (repeat (T KError m) k).
Proof. induction k as [|k IH]; intros l E; [reflexivity|]. cbn [nexts repeat]. replace (Next big big l) with (Done (T KError m) l) by (destruct big; cbn [Next]; rewrite E; reflexivity). rewrite (IH l E). reflexivity. Qed.
Lemma nexts_at big : 4 <= big -> forall k l level s q m, at_ l level s q -> length s < big -> ~ In TError q -> (In TError (Lx level s) -> m = item_msg (Stuck level s)) ->
  (k <= length (q ++ Lx level s) -> nexts big k l = Some (firstn k (map (tokm m) (q ++ Lx level s))))
  /\ (In TError (Lx level s) -> length (q ++ Lx level s) <= k -> nexts big k l = Some (map (tokm m) (q ++ Lx level s) ++ repeat (T KError m) (k - length (q ++ Lx level s)))).
Proof.
  intros B. induction k as [|k IH]; intros l level s q m A Lb Ne Hm.
  { split; [reflexivity|]. intros T0 L. assert (Q : q ++ Lx level s = []) by (apply length_zero_iff_nil; lia). apply app_eq_nil in Q. destruct Q as [_ Q]. rewrite Q in T0. destruct T0. }
  destruct q as [|t q].
  - cbn [app]. destruct (Next_at big big l level s A Lb Lb B) as [[E [l' [Nx Er]]]|[[E [l' Nx]]|[t [q [lv [s' [l' [Nx [A' [E [G [N1 [N2 St]]]]]]]]]]]]].
    + rewrite E in *. cbn [nexts]. rewrite Nx, <- (Hm ltac:(left; reflexivity)). rewrite <- (Hm ltac:(left; reflexivity)) in Er. rewrite (nexts_error big k m l' Er). cbn [length map tokm firstn]. split.
      * intros L. assert (k = 0) by lia. subst k. reflexivity.
      * intros _ L. rewrite Nat.sub_succ, Nat.sub_0_r. reflexivity.
    + rewrite E in *. cbn [nexts]. rewrite Nx. cbn [length map tokm tok firstn]. split; [intros L; assert (k = 0) by lia; subst k; reflexivity|]. intros [Q|[]]. discriminate.
    + rewrite E in *. cbn [nexts]. rewrite Nx. assert (Nt : tokm m t = tok t) by (destruct t; try reflexivity; elim N1; left; reflexivity).
      assert (Nq : ~ In TError q) by (intros Q; apply N1; right; exact Q).
      assert (Up : In TError (Lx lv s') -> In TError (t :: q ++ Lx lv s')) by (intros Q; right; apply in_or_app; auto).
      destruct (IH l' lv s' q m A' ltac:(lia) Nq) as [I1 I2]; [intros T0; rewrite (Hm (Up T0)), (St (Up T0)); reflexivity|]. cbn [length map firstn app]. rewrite Nt. split.
      * intros L. rewrite I1 by lia. reflexivity.
      * intros T0 L. assert (T1 : In TError (Lx lv s')). { destruct T0 as [T0|T0]; [elim N1; left; exact T0|]. apply in_app_or in T0. destruct T0; [contradiction|assumption]. }
        rewrite (I2 T1) by lia. rewrite Nat.sub_succ. reflexivity.
  - destruct A as [H [Er [Tk Lv]]]. cbn [map] in Tk. assert (exists l', Next big big l = Done (tok t) l' /\ at_ l' level s q) as [l' [Nx A']].
    { destruct big; cbn [Next]; rewrite Er, Tk; (eexists; split; [reflexivity|]); (split; [exact H|]); repeat split; assumption. }
    assert (Nt : tokm m t = tok t) by (destruct t; try reflexivity; elim Ne; left; reflexivity). cbn [nexts]. rewrite Nx.
    destruct (IH l' level s q m A' Lb ltac:(intros Q; apply Ne; right; exact Q) Hm) as [I1 I2]. cbn [app length map firstn]. rewrite Nt. split.
    + intros L. rewrite I1 by lia. reflexivity.
    + intros T0 L. rewrite (I2 T0) by lia. rewrite Nat.sub_succ. reflexivity.
Qed.
