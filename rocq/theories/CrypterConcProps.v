(** * C77: ciphers shared by goroutines. *)
From Coq Require Import ZArith Arith List Bool Lia.
From Verif Require Import TfLang TfSpec TfAlgebra TfSym TfProofs TfConform CrypterModel CrypterSpec CrypterContract CrypterProofs CrypterProofs2 CrypterProofs3 CrypterProofs4 CrypterConc CrypterConcProofs.
Import ListNotations.
Open Scope Z_scope.

(** ** Vocabulary *)
(** A cipher of member p after any history, with the key and tweak in force. *)
Definition in_force (c : cipher) (p : tf_params) (key : list Z) (t0 t1 : Z) : Prop :=
  exists c0 st ops, created c0 p st /\ Forall wf_op ops /\ run c0 ops = Some c /\ settings p st ops = (key, t0, t1).
(** Threefish encryption or decryption of a block. *)
Definition block (e : bool) (p : tf_params) (key : list Z) (t0 t1 : Z) (b : list Z) : list Z :=
  if e then threefish_encrypt word64 p key t0 t1 b else threefish_decrypt word64 p key t0 t1 b.
(** A call has room for a block; the byte methods need the right state size, which New and NewSize record. *)
Definition room (p : tf_params) (c : cipher) (k : call) : Prop :=
  match what k with
  | Bytes _ => stateSize c = 64 * Z.of_nat (nw p) /\ (8 * nw p <= length (src k))%nat /\ (8 * nw p <= length (dst k))%nat
  | Words _ => (nw p <= length (src k))%nat /\ (nw p <= length (dst k))%nat
  | NewKey _ | NewTweak _ _ => False
  end.
(** The calls on cipher number ci encrypt and decrypt, with room; what happens to other ciphers does not matter. *)
Definition crypting (calls : list call) (ci : nat) (p : tf_params) (c : cipher) : Prop := forall k, List.In k calls -> on k = ci -> room p c k.
(** The state after any number of steps of the calls, from ciphers C. *)
Definition reached (calls : list call) (C C' : nat -> cipher) (T' : nat -> thread) : Prop := exists m, xsteps calls m (C, started calls) (C', T').

(** ** From the constructors to the invariant *)
Definition len2 (c : cipher) := length (tmpData2 c) = qwords (impl c).
Lemma newThreefish_len2 ss v key tw c : newThreefish ss v key tw = Ret c -> len2 c.
Proof.
  unfold newThreefish, len2. intros H. destruct (setTweak tw _) as [xt|]; [|discriminate]. destruct key as [kb|]; [|injection H as <-; apply repeat_length].
  destruct (length kb <? 8 * qwords v)%nat; [discriminate|]. destruct (setKey _ _) as [xk|]; [|discriminate]. injection H as <-. apply repeat_length.
Qed.
Lemma newThreefish_64_len2 ss v key tw c : newThreefish_64 ss v key tw = Ret c -> len2 c.
Proof. unfold newThreefish_64, len2. intros H. destruct (setTweak tw _) as [xt|]; [|discriminate]. destruct (setKey _ _) as [xk|]; [|discriminate]. injection H as <-. apply repeat_length. Qed.
Lemma created_len2 c p st : created c p st -> len2 c.
Proof.
  intros H. destruct H as [key tw c p t0 t1 _ _ N|key tw c p t0 t1 _ _ N|size c p _ N]; unfold New, New64, NewSize in N.
  all: repeat match goal with H : context [if ?b then _ else _] |- _ => destruct b end; try discriminate; first [apply newThreefish_len2 in N|apply newThreefish_64_len2 in N]; exact N.
Qed.
Lemma crypt_bytes_len2 body c mem d s c' m : crypt_bytes body c mem d s = Some (c', m) -> len2 c'.
Proof. unfold crypt_bytes, len2. intros H. destruct (load_words _ _ _ _ _); [|discriminate]. destruct (store_words _ _ _ _ _); [|discriminate]. injection H as <- _. cbn. apply run_body_length. Qed.
Lemma step_len2 c o c' m : len2 c -> step c o = Some (c', m) -> len2 c'.
Proof.
  intros L H. destruct o as [key|tw|mem d s|mem d s|mem d s|mem d s]; cbn [step] in H.
  - unfold SetKey in H. destruct (setKey _ _); [|discriminate]. injection H as <- _. exact L.
  - unfold SetTweak in H. destruct (setTweak _ _); [|discriminate]. injection H as <- _. exact L.
  - eapply crypt_bytes_len2; exact H.
  - eapply crypt_bytes_len2; exact H.
  - unfold Encrypt64, crypt_words in H. destruct (_ || _)%bool; [discriminate|]. injection H as <- _. exact L.
  - unfold Decrypt64, crypt_words in H. destruct (_ || _)%bool; [discriminate|]. injection H as <- _. exact L.
Qed.
Lemma run_len2 ops : forall c c', len2 c -> run c ops = Some c' -> len2 c'.
Proof. induction ops as [|o ops IH]; intros c c' L H; cbn [run] in H; [injection H as <-; exact L|]. destruct (step c o) as [[c1 m]|] eqn:E; [|discriminate]. eapply IH; [|exact H]. eapply step_len2; eassumption. Qed.
Lemma in_force_inv c p key t0 t1 : in_force c p key t0 t1 -> exists v, p = params v /\ Inv c v (stateSize c) key t0 t1 /\ CInv v (stateSize c) (extend_key word64 key) (extend_tweak word64 t0 t1) c.
Proof.
  intros [c0 [st [ops [Cr [W [R S]]]]]]. destruct (created_inv _ _ _ Cr) as [v [ss [<- [I _]]]]. pose proof (run_inv _ _ _ _ _ _ I W R) as I'. rewrite S in I'. cbn [vinv] in I'. pose proof (run_len2 _ _ _ (created_len2 _ _ _ Cr) R) as L2. pose proof I' as [Ev [Es [Lk [Ek [Et [L1 [Hz Hu]]]]]]].
  exists v. rewrite Es. split; [reflexivity|]. split; [exact I'|]. unfold len2 in L2. rewrite Ev in L2. repeat split; assumption.
Qed.
Lemma room_fit v c k : room (params v) c k -> fit v (stateSize c) k.
Proof. unfold room, fit. rewrite params_nw. auto. Qed.
Lemma block_body e v key t0 t1 M : length key = qwords v -> length M = qwords v -> run_body (qwords v) (body_of e v) M (extend_key word64 key) (extend_tweak word64 t0 t1) = block e (params v) key t0 t1 M.
Proof. intros Lk LM. destruct e; [apply enc_body_spec|apply dec_body_spec]; try reflexivity; try assumption; apply ekl; exact Lk. Qed.

(** ** What any interleaving gives.  Encrypt64 and Decrypt64 are exact.  Encrypt and Decrypt deliver words of encryptions or decryptions, by calls on the same cipher, of blocks put
    together from words of the blocks of such calls. *)
Theorem C77_any calls C C' T' i k p key t0 t1 : in_force (C (on k)) p key t0 t1 -> crypting calls (on k) p (C (on k)) -> reached calls C C' T' -> nth_error calls i = Some k -> returned calls C' T' i ->
  match what k with
  | Words e => into (T' i) = overwrite (dst k) 0 (block e p key t0 t1 (firstn (nw p) (src k)))
  | Bytes _ => exists W, length W = nw p /\ into (T' i) = overwrite (dst k) 0 (bytes_of_words W) /\
      forall j, (j < nw p)%nat -> exists k' e' M, List.In k' calls /\ on k' = on k /\ what k' = Bytes e' /\ length M = nw p /\ nth j W 0 = nth j (block e' p key t0 t1 M) 0 /\
        forall h, (h < nw p)%nat -> exists k'' e'', List.In k'' calls /\ on k'' = on k /\ what k'' = Bytes e'' /\ nth h M 0 = nth h (words_of_bytes (nw p) (src k'')) 0
  | _ => False
  end.
Proof.
  intros F Cr [m R] Hk [k0 [Hk0 Hpc]]. rewrite Hk in Hk0. injection Hk0 as <-. destruct (in_force_inv _ _ _ _ _ F) as [v [-> [I CI]]]. pose proof I as [_ [_ [Lk _]]].
  assert (Fit : forall k', List.In k' calls -> on k' = on k -> fit v (stateSize (C (on k))) k') by (intros k' H1 H2; apply room_fit, Cr; assumption).
  destruct (all_steps calls (on k) v (stateSize (C (on k))) _ _ Fit m C _ CI R) as [[CI' TI] _]. cbn [fst snd] in *. specialize (TI i k Hk eq_refl). pose proof (Fit k (nth_error_In _ _ Hk) eq_refl) as Fk. unfold TInv, fit in *. rewrite params_nw. pose proof CI' as [Ev [Es _]]. unfold program in Hpc. rewrite Ev, Es in Hpc.
  pose proof (sh_len _ _ _ (shape_ok true v)) as HLt. pose proof (sh_len _ _ _ (shape_ok false v)) as HLf.
  assert (HL : forall e, (2 * qwords v <= length (body_of e v))%nat) by (intros e; destruct e; assumption). clear HLt HLf.
  destruct (what k) as [e|e|key'|a b]; try contradiction; specialize (HL e).
  - destruct Fk as [Hs _]. rewrite Hs in Hpc. rewrite !app_length, !map_length, !seq_length in Hpc. replace (Z.to_nat (64 * Z.of_nat (qwords v) / 64)) with (qwords v) in Hpc by (symmetry; apply ss_words).
    destruct TI as [_ _ _ _ [W [LW [D G]]]]. exists W. split; [lia|]. split; [exact D|]. intros j Hj. destruct (G j ltac:(lia)) as [k' [e' [M [H1 [H2 [H3 [H4 [H5 H6]]]]]]]]. exists k', e', M. rewrite H6, block_body by assumption. repeat split; auto.
  - rewrite map_length in Hpc. destruct Fk as [Ls Ld]. destruct TI as [_ _ Ln O Rs].
    assert (LB : length (block e (params v) key t0 t1 (firstn (qwords v) (src k))) = qwords v) by (rewrite <- block_body; [apply run_body_length|exact Lk|rewrite firstn_length; lia]).
    apply (nth_ext _ _ 0 0); [rewrite overwrite0_length by lia; exact Ln|]. intros j Hj. rewrite nth_overwrite0 by lia. rewrite LB. destruct (Nat.ltb_spec j (qwords v)) as [H|H]; [|apply Rs; exact H].
    pose proof (turn_lt (qwords v) (backwards e v) j H). rewrite (O j H) by lia. rewrite <- block_body; [|exact Lk|rewrite firstn_length; lia]. rewrite !nth_run_body by exact H. apply (out_alike (qwords v) (backwards e v)); [apply shape_ok|exact H|].
    intros u Hu. destruct u; try reflexivity. cbn [call_env]. rewrite nth_firstn_lt by exact Hu. reflexivity.
Qed.
Print Assumptions C77_any.
(** If no other call on the same cipher uses the byte methods, every call gives what it gives alone, whatever else goes on. *)
Theorem C77_safe calls C C' T' i k e p key t0 t1 : in_force (C (on k)) p key t0 t1 -> crypting calls (on k) p (C (on k)) -> reached calls C C' T' -> nth_error calls i = Some k -> returned calls C' T' i ->
  what k = Bytes e -> (forall k' e', List.In k' calls -> on k' = on k -> what k' = Bytes e' -> k' = k) ->
  into (T' i) = overwrite (dst k) 0 (bytes_of_words (block e p key t0 t1 (words_of_bytes (nw p) (src k)))).
Proof.
  intros F Cr R Hk Rt Hw Only. pose proof (C77_any _ _ _ _ _ _ _ _ _ _ F Cr R Hk Rt) as H. rewrite Hw in H. destruct H as [W [LW [-> H]]]. do 2 f_equal. destruct (in_force_inv _ _ _ _ _ F) as [v [-> [I _]]]. pose proof I as [_ [_ [Lk _]]].
  assert (LB : length (block e (params v) key t0 t1 (words_of_bytes (nw (params v)) (src k))) = nw (params v)) by (rewrite params_nw, <- block_body; [apply run_body_length|exact Lk|apply words_of_bytes_length]).
  apply (nth_ext _ _ 0 0); [lia|]. intros j Hj. rewrite LW in Hj. destruct (H j Hj) as [k' [e' [M [H1 [H2 [H3 [H4 [-> H5]]]]]]]]. pose proof (Only _ _ H1 H2 H3) as ->. rewrite Hw in H3. injection H3 as <-. do 2 f_equal.
  apply (nth_ext _ _ 0 0); [rewrite words_of_bytes_length; exact H4|]. intros h Hh. rewrite H4 in Hh. destruct (H5 h Hh) as [k'' [e'' [G1 [G2 [G3 ->]]]]]. rewrite (Only _ _ G1 G2 G3). reflexivity.
Qed.
Print Assumptions C77_safe.
(** At any moment, however many calls are under way or were abandoned, a new call on the cipher made on its own returns what it would have returned at the beginning. *)
Theorem C77_after calls C C' T' ci p key t0 t1 o : in_force (C ci) p key t0 t1 -> crypting calls ci p (C ci) -> reached calls C C' T' -> wf_op o ->
  option_map snd (step (C' ci) o) = option_map snd (step (C ci) o).
Proof.
  intros F Cr [m R] W. destruct (in_force_inv _ _ _ _ _ F) as [v [-> [I CI]]]. assert (Fit : forall k', List.In k' calls -> on k' = ci -> fit v (stateSize (C ci)) k') by (intros k' H1 H2; apply room_fit, Cr; assumption).
  destruct (all_steps calls ci v (stateSize (C ci)) _ _ Fit m C _ CI R) as [[CI' _] [Ch _]]. cbn [fst snd] in *. destruct CI' as [Ev [Es [Ek [Et [L1 L2]]]]]. pose proof I as [Jv [Js [Lk [Jk [Jt [J1 [Jz Ju]]]]]]].
  apply (step_obs _ _ v (stateSize (C ci)) (key, t0, t1)); [|exact I|exact W]. repeat split; try assumption. destruct (Z.eq_dec (stateSize (C ci)) (64 * Z.of_nat (qwords v))) as [E|N].
  - rewrite E. rewrite ss_words. rewrite Nat.sub_diag, skipn_all2 by lia. reflexivity.
  - replace (tmpData1 (C' ci)) with (tmpData1 (C ci)); [exact Jz|]. apply (nth_ext _ _ 0 0); [lia|]. intros j Hj. destruct (Ch j ltac:(lia)) as [E|[k [e [H1 [H2 [H3 _]]]]]]; [symmetry; exact E|]. exfalso. specialize (Fit k H1 H2). unfold fit in Fit. rewrite H3 in Fit. apply N, Fit.
Qed.
Print Assumptions C77_after.

(** ** Every call can always go on, and every run ends. *)
Theorem C77_not_stuck calls C T i k : nth_error calls i = Some k -> (pc (T i) < length (program (C (on k)) (what k)))%nat -> exists C' T', xstep calls (C, T) (C', T') /\ pc (T' i) = S (pc (T i)).
Proof. intros Hk Hp. destruct (nth_error (program (C (on k)) (what k)) (pc (T i))) as [m|] eqn:E; [|apply nth_error_None in E; lia]. do 2 eexists. split; [eapply x_step; eassumption|]. unfold put. rewrite Nat.eqb_refl. apply act_pc. Qed.
Print Assumptions C77_not_stuck.
Fixpoint sum_pc (calls : list call) (T : nat -> thread) (i : nat) : nat := match calls with [] => 0 | _ :: r => pc (T i) + sum_pc r T (S i) end.
Lemma sum_put (calls : list call) T i t : (i < length calls)%nat -> forall b, pc t = S (pc (T (b + i)%nat)) -> sum_pc calls (put T (b + i) t) b = S (sum_pc calls T b).
Proof.
  assert (Same : forall l T t j b, (j < b)%nat -> sum_pc l (put T j t) b = sum_pc l T b).
  { induction l as [|x l IH]; intros T0 t0 j b H; cbn [sum_pc]; [reflexivity|]. rewrite IH by lia. unfold put at 1. destruct (Nat.eqb_spec b j); [lia|reflexivity]. }
  revert i. induction calls as [|x l IH]; intros i Hi b E; cbn [length] in Hi; [lia|]. cbn [sum_pc]. destruct i as [|i].
  - rewrite Nat.add_0_r in *. rewrite Same by lia. unfold put. rewrite Nat.eqb_refl, E. reflexivity.
  - replace (b + S i)%nat with (S b + i)%nat in * by lia. rewrite (IH i ltac:(lia) (S b) E). unfold put. destruct (Nat.eqb_spec b (S b + i)); [lia|]. lia.
Qed.
Lemma sum_le (f : call -> nat) T : forall l b, (forall i k, nth_error l i = Some k -> pc (T (b + i)%nat) <= f k)%nat -> (sum_pc l T b <= list_sum (map f l))%nat.
Proof.
  induction l as [|x l IH]; intros b H; [apply le_n|]. cbn [sum_pc map list_sum fold_right]. pose proof (H 0%nat x eq_refl) as H0. rewrite Nat.add_0_r in H0. apply Nat.add_le_mono; [exact H0|]. apply IH. intros i k Hk. specialize (H (S i) k Hk). replace (b + S i)%nat with (S b + i)%nat in H by lia. exact H.
Qed.
Theorem C77_ends calls C m C' T' : xsteps calls m (C, started calls) (C', T') -> (m <= list_sum (map (fun k => length (program (C (on k)) (what k))) calls))%nat.
Proof.
  intros H. assert (G : m = sum_pc calls T' 0 /\ (forall ci k, program (C' ci) k = program (C ci) k) /\ forall i k, nth_error calls i = Some k -> (pc (T' i) <= length (program (C (on k)) (what k)))%nat).
  { remember (C, started calls) as s0 eqn:E0. remember (C', T') as s1 eqn:E1. revert C' T' E1. induction H as [s|m s s1 s2 H IH St]; intros C' T' E1; subst.
    - injection E1 as <- <-. split; [|split; [reflexivity|intros; cbn; lia]]. assert (Z0 : forall l b, sum_pc l (started calls) b = 0%nat) by (induction l as [|x l IH]; intros b; [reflexivity|]; cbn [sum_pc]; rewrite IH; reflexivity). rewrite Z0. reflexivity.
    - destruct s1 as [C1 T1]. destruct (IH eq_refl C1 T1 eq_refl) as [I1 [I2 I3]]. inversion St as [C2 T2 i k c Hk Hm]; subst. split; [|split].
      + pose proof (sum_put calls T1 i (snd (act k c (C1 (on k)) (T1 i))) ltac:(apply nth_error_Some; congruence) 0%nat) as X. cbn [Nat.add] in X. rewrite X by apply act_pc. reflexivity.
      + intros ci k0. unfold put. destruct (Nat.eqb_spec ci (on k)) as [->|N]; [rewrite act_program|]; apply I2.
      + intros i' k' Hk'. unfold put. destruct (Nat.eqb_spec i' i) as [->|N]; [|apply I3; exact Hk']. rewrite Hk' in Hk. injection Hk as ->. rewrite act_pc. rewrite I2 in Hm. apply nth_error_Some. congruence. }
  destruct G as [-> [_ G]]. apply (sum_le (fun k => length (program (C (on k)) (what k)))). intros i k Hk. apply G. exact Hk.
Qed.
Print Assumptions C77_ends.

(** ** What goes wrong with two byte calls on one cipher: for every key and any two blocks, both calls can return with the answer of the second, whatever the methods; for
    instance, Encrypt can deliver what another goroutine has just decrypted. *)
Definition twice (e1 e2 : bool) (a b d1 d2 : list Z) : list call := [{| on := 0; what := Bytes e1; src := a; dst := d1 |}; {| on := 0; what := Bytes e2; src := b; dst := d2 |}].
Lemma words_loaded k v l c : l = words_of_bytes (qwords v) (src k) -> forall l', length l' = qwords v -> (8 * qwords v <= length (src k))%nat ->
  (forall j, (j < length l')%nat -> nth j l' 0 = if ((0 <=? j) && (j <? 0 + qwords v))%nat%bool then uint64le (skipn (j * 8) (src k)) else nth j c 0) -> l' = l.
Proof.
  intros -> l' Ll Ls H. apply (nth_ext _ _ 0 0); [rewrite words_of_bytes_length; exact Ll|]. intros j Hj. rewrite (H j Hj). rewrite Ll in Hj. destruct (Nat.leb_spec 0 j), (Nat.ltb_spec j (0 + qwords v)); try lia. cbn [andb]. apply load_word; assumption.
Qed.
Theorem C77_exchange_refuted C p key t0 t1 e1 e2 a b d1 d2 : in_force (C 0%nat) p key t0 t1 -> stateSize (C 0%nat) = 64 * Z.of_nat (nw p) ->
  (8 * nw p <= length a)%nat -> (8 * nw p <= length b)%nat -> (8 * nw p <= length d1)%nat -> (8 * nw p <= length d2)%nat ->
  exists C' T', reached (twice e1 e2 a b d1 d2) C C' T' /\ returned (twice e1 e2 a b d1 d2) C' T' 0 /\ returned (twice e1 e2 a b d1 d2) C' T' 1 /\
    into (T' 0%nat) = overwrite d1 0 (bytes_of_words (block e2 p key t0 t1 (words_of_bytes (nw p) b))) /\
    into (T' 1%nat) = overwrite d2 0 (bytes_of_words (block e2 p key t0 t1 (words_of_bytes (nw p) b))).
Proof.
  intros F Ss La Lb Ld1 Ld2. destruct (in_force_inv _ _ _ _ _ F) as [v [-> [I CI]]]. rewrite params_nw in *. pose proof I as [_ [_ [Lk _]]]. destruct CI as [Ev [_ [Ek [Et [L1 L2]]]]]. set (calls := twice e1 e2 a b d1 d2).
  set (ka := {| on := 0; what := Bytes e1; src := a; dst := d1 |}). set (kb := {| on := 0; what := Bytes e2; src := b; dst := d2 |}).
  assert (Pr : forall e, program (C 0%nat) (Bytes e) = map Load (seq 0 (qwords v)) ++ map (Body false) (body_of e v) ++ map Store (seq 0 (qwords v))) by (intros e; unfold program; rewrite Ev, Ss, ss_words; reflexivity).
  (* the first call up to its stores *)
  destruct (solo calls 0 ka (map Load (seq 0 (qwords v)) ++ map (Body false) (body_of e1 v)) eq_refl (map Store (seq 0 (qwords v))) C (started calls)) as [C1 [T1 [R1 [E1 [F1 [G1 H1]]]]]]; [cbn [pc started what ka on skipn]; rewrite Pr, app_assoc; reflexivity|].
  unfold acts in E1. rewrite fold_left_app in E1. fold (acts ka) in E1. cbn [on ka] in E1, F1, H1. destruct (acts_loads ka (qwords v) 0 (C 0%nat) (started calls 0%nat)) as [la [Ea [Lla Na]]]. unfold acts in Ea at 1. rewrite Ea in E1.
  destruct (acts_body_bytes ka e1 v (set_tmp1 (C 0%nat) la) {| pc := qwords v + pc (started calls 0%nat); locals := locals (started calls 0%nat); into := into (started calls 0%nat) |} L2 ltac:(reflexivity)) as [lc1 Eb]. unfold acts in Eb. rewrite Eb in E1. clear Ea Eb. injection E1 as E1 E1t.
  (* the second call up to its stores *)
  assert (P1 : forall k, program (C1 0%nat) k = program (C 0%nat) k) by (intros k; rewrite E1; reflexivity).
  assert (T11 : T1 1%nat = started calls 1%nat) by (apply G1; discriminate).
  destruct (solo calls 1 kb (map Load (seq 0 (qwords v)) ++ map (Body false) (body_of e2 v)) eq_refl (map Store (seq 0 (qwords v))) C1 T1) as [C2 [T2 [R2 [E2 [F2 [G2 H2]]]]]]; [rewrite T11; cbn [pc started what kb on skipn]; rewrite P1, Pr, app_assoc; reflexivity|].
  unfold acts in E2. rewrite fold_left_app in E2. cbn [on kb] in E2, F2, H2. rewrite T11 in E2. destruct (acts_loads kb (qwords v) 0 (C1 0%nat) (started calls 1%nat)) as [lb [Ea [Llb Nb]]]. unfold acts in Ea at 1. rewrite Ea in E2.
  assert (L2' : length (tmpData2 (set_tmp1 (C1 0%nat) lb)) = qwords v) by (rewrite E1; cbn; apply run_body_length).
  destruct (acts_body_bytes kb e2 v (set_tmp1 (C1 0%nat) lb) {| pc := qwords v + pc (started calls 1%nat); locals := locals (started calls 1%nat); into := into (started calls 1%nat) |} L2' ltac:(reflexivity)) as [lc2 Eb]. unfold acts in Eb. rewrite Eb in E2. clear Ea Eb. injection E2 as E2 E2t.
  assert (Elb : lb = words_of_bytes (qwords v) b) by (apply (words_loaded kb v _ (tmpData1 (C1 0%nat)) eq_refl); [rewrite Llb, E1; cbn; rewrite Lla; exact L1|exact Lb|exact Nb]).
  assert (Tmp2 : tmpData2 (C2 0%nat) = block e2 (params v) key t0 t1 (words_of_bytes (qwords v) b)).
  { rewrite E2. cbn [tmpData2 set_tmp2 tmpData1 set_tmp1 expandedKey expandedTweak]. rewrite E1. cbn [expandedKey expandedTweak set_tmp2 set_tmp1]. rewrite Elb, Ek, Et. apply block_body; [exact Lk|apply words_of_bytes_length]. }
  assert (L22 : length (tmpData2 (C2 0%nat)) = qwords v) by (rewrite E2; cbn; apply run_body_length). assert (P2 : forall k, program (C2 0%nat) k = program (C 0%nat) k) by (intros k; rewrite E2, <- P1; reflexivity).
  (* the stores *)
  assert (T20 : T2 0%nat = T1 0%nat) by (apply G2; discriminate).
  destruct (solo calls 0 ka (map Store (seq 0 (qwords v))) eq_refl [] C2 T2) as [C3 [T3 [R3 [E3 [F3 [G3 H3]]]]]]; [rewrite T20, app_nil_r; cbn [on ka what]; rewrite P2, <- P1; exact H1|]. cbn [on ka] in E3, F3, H3.
  assert (In0 : into (T2 0%nat) = d1) by (rewrite T20, E1t; reflexivity). rewrite acts_stores in E3 by (rewrite ?In0; lia). injection E3 as E3 E3t.
  assert (T31 : T3 1%nat = T2 1%nat) by (apply G3; discriminate).
  destruct (solo calls 1 kb (map Store (seq 0 (qwords v))) eq_refl [] C3 T3) as [C4 [T4 [R4 [E4 [F4 [G4 H4]]]]]]; [rewrite T31, app_nil_r; cbn [on kb what] in *; rewrite E3; exact H2|]. cbn [on kb] in E4, F4, H4.
  assert (In1 : into (T3 1%nat) = d2) by (rewrite T31, E2t; reflexivity). rewrite acts_stores in E4 by (rewrite ?In1, ?E3; lia). injection E4 as E4 E4t. rewrite E3 in E4, E4t.
  assert (T40 : T4 0%nat = T3 0%nat) by (apply G4; discriminate).
  exists C4, T4. split; [|split; [|split; [|split]]].
  - destruct (reach_trans _ _ _ _ R1 (reach_trans _ _ _ _ R2 (reach_trans _ _ _ _ R3 R4))) as [m R]. exists m. exact R.
  - exists ka. split; [reflexivity|]. cbn [on ka what]. rewrite E4, P2, Pr, T40, E3t. cbn [pc]. rewrite T20, E1t. cbn [pc started]. rewrite !app_length, !map_length, !seq_length. lia.
  - exists kb. split; [reflexivity|]. cbn [on kb what]. rewrite E4, P2, Pr, E4t. cbn [pc]. rewrite T31, E2t. cbn [pc started]. rewrite !app_length, !map_length, !seq_length. lia.
  - rewrite T40, E3t. cbn [into]. rewrite In0, Tmp2. rewrite firstn_all2 by (rewrite <- Tmp2; lia). reflexivity.
  - rewrite E4t. cbn [into]. rewrite In1, Tmp2. rewrite firstn_all2 by (rewrite <- Tmp2; lia). reflexivity.
Qed.
Print Assumptions C77_exchange_refuted.
(** Or with the answer for a block that is no one's: the first m words of the second call's block and the rest of its own. *)
Theorem C77_mixture_refuted C p key t0 t1 e1 e2 a b d1 d2 m : in_force (C 0%nat) p key t0 t1 -> stateSize (C 0%nat) = 64 * Z.of_nat (nw p) -> (m <= nw p)%nat ->
  (8 * nw p <= length a)%nat -> (8 * nw p <= length b)%nat -> (8 * nw p <= length d1)%nat -> (8 * nw p <= length d2)%nat ->
  exists C' T', reached (twice e1 e2 a b d1 d2) C C' T' /\ returned (twice e1 e2 a b d1 d2) C' T' 0 /\
    into (T' 0%nat) = overwrite d1 0 (bytes_of_words (block e1 p key t0 t1 (firstn m (words_of_bytes (nw p) b) ++ skipn m (words_of_bytes (nw p) a)))).
Proof.
  intros F Ss Hm La Lb Ld1 Ld2. destruct (in_force_inv _ _ _ _ _ F) as [v [-> [I CI]]]. rewrite params_nw in *. pose proof I as [_ [_ [Lk _]]]. destruct CI as [Ev [_ [Ek [Et [L1 L2]]]]]. set (calls := twice e1 e2 a b d1 d2).
  set (ka := {| on := 0; what := Bytes e1; src := a; dst := d1 |}). set (kb := {| on := 0; what := Bytes e2; src := b; dst := d2 |}). set (n := qwords v) in *.
  assert (Pr : forall e, program (C 0%nat) (Bytes e) = map Load (seq 0 n) ++ map (Body false) (body_of e v) ++ map Store (seq 0 n)) by (intros e; unfold program; rewrite Ev, Ss; unfold n; rewrite ss_words; reflexivity).
  destruct (solo calls 0 ka (map Load (seq 0 n)) eq_refl (map (Body false) (body_of e1 v) ++ map Store (seq 0 n)) C (started calls)) as [C1 [T1 [R1 [E1 [F1 [G1 H1]]]]]]; [cbn [pc started what ka on skipn]; rewrite Pr; reflexivity|].
  cbn [on ka] in E1, F1, H1. destruct (acts_loads ka n 0 (C 0%nat) (started calls 0%nat)) as [la [Ea [Lla Na]]]. rewrite Ea in E1. injection E1 as E1 E1t.
  assert (Ela : la = words_of_bytes n a) by (apply (words_loaded ka v _ (tmpData1 (C 0%nat)) eq_refl); [lia|exact La|exact Na]).
  assert (P1 : forall k, program (C1 0%nat) k = program (C 0%nat) k) by (intros k; rewrite E1; reflexivity). assert (T11 : T1 1%nat = started calls 1%nat) by (apply G1; discriminate).
  destruct (solo calls 1 kb (map Load (seq 0 m)) eq_refl (map Load (seq m (n - m)) ++ map (Body false) (body_of e2 v) ++ map Store (seq 0 n)) C1 T1) as [C2 [T2 [R2 [E2 [F2 [G2 H2]]]]]].
  { rewrite T11. cbn [pc started what kb on skipn]. rewrite P1, Pr. pose proof (seq_app m (n - m) 0) as X. replace (m + (n - m))%nat with n in X by lia. rewrite X at 1. rewrite map_app, <- app_assoc. reflexivity. }
  cbn [on kb] in E2, F2, H2. rewrite T11 in E2. destruct (acts_loads kb m 0 (C1 0%nat) (started calls 1%nat)) as [lb [Eb [Llb Nb]]]. rewrite Eb in E2. injection E2 as E2 E2t.
  assert (Llb' : length lb = n) by (rewrite Llb, E1; cbn; rewrite Lla; exact L1).
  assert (Elb : lb = firstn m (words_of_bytes n b) ++ skipn m (words_of_bytes n a)).
  { apply (nth_ext _ _ 0 0); [rewrite app_length, firstn_length, skipn_length, !words_of_bytes_length; lia|]. intros j Hj. rewrite (Nb j Hj), E1. cbn [tmpData1 set_tmp1]. rewrite Ela. cbn [Nat.leb andb Nat.add]. destruct (Nat.ltb_spec j m) as [H|H].
    - rewrite app_nth1 by (rewrite firstn_length, words_of_bytes_length; lia). rewrite nth_firstn_lt by exact H. apply load_word; [lia|exact Lb].
    - rewrite app_nth2 by (rewrite firstn_length, words_of_bytes_length; lia). rewrite firstn_length, words_of_bytes_length, Nat.min_l by lia. rewrite nth_skipn'. f_equal. lia. }
  assert (T20 : T2 0%nat = T1 0%nat) by (apply G2; discriminate). assert (P2 : forall k, program (C2 0%nat) k = program (C 0%nat) k) by (intros k; rewrite E2, <- P1; reflexivity).
  destruct (solo calls 0 ka (map (Body false) (body_of e1 v) ++ map Store (seq 0 n)) eq_refl [] C2 T2) as [C3 [T3 [R3 [E3 [F3 [G3 H3]]]]]]; [rewrite T20, app_nil_r; cbn [on ka what]; rewrite P2, <- P1; exact H1|]. cbn [on ka] in E3, F3, H3.
  unfold acts in E3. rewrite fold_left_app in E3. assert (L2' : length (tmpData2 (C2 0%nat)) = qwords v) by (rewrite E2, E1; exact L2).
  destruct (acts_body_bytes ka e1 v (C2 0%nat) (T2 0%nat) L2' ltac:(rewrite T20, E1t; reflexivity)) as [lc Ec]. unfold acts in Ec. rewrite Ec in E3. fold (acts ka (map Store (seq 0 n))) in E3. clear Ec.
  assert (In0 : into (T2 0%nat) = d1) by (rewrite T20, E1t; reflexivity).
  pose proof (acts_stores ka (set_tmp2 (C2 0%nat) (run_body (qwords v) (body_of e1 v) (tmpData1 (C2 0%nat)) (expandedKey (C2 0%nat)) (expandedTweak (C2 0%nat)))) {| pc := length (body_of e1 v) + pc (T2 0%nat); locals := lc; into := into (T2 0%nat) |} n) as St.
  cbn [tmpData2 set_tmp2 into pc locals] in St. rewrite run_body_length in St. specialize (St (le_n _) ltac:(rewrite In0; exact Ld1)). unfold acts in St. rewrite St in E3. clear St. injection E3 as E3 E3t.
  exists C3, T3. split; [|split].
  - destruct (reach_trans _ _ _ _ R1 (reach_trans _ _ _ _ R2 R3)) as [q R]. exists q. exact R.
  - exists ka. split; [reflexivity|]. cbn [on ka what]. assert (P3 : program (C3 0%nat) (Bytes e1) = program (C 0%nat) (Bytes e1)) by (rewrite E3, <- P2; reflexivity). rewrite P3, Pr, E3t. cbn [pc]. rewrite T20, E1t. cbn [pc started]. rewrite !app_length, !map_length, !seq_length. lia.
  - rewrite E3t. cbn [into]. rewrite In0. f_equal. f_equal. rewrite firstn_all2 by (rewrite run_body_length; apply le_n). rewrite E2. cbn [tmpData1 set_tmp1 expandedKey expandedTweak]. rewrite E1. cbn [set_tmp1 expandedKey expandedTweak]. rewrite Ek, Et, <- Elb. apply block_body; [exact Lk|exact Llb'].
Qed.
Print Assumptions C77_mixture_refuted.

(** Encrypt64 during SetKey: it may work with some words of the new key and the rest, the parity word included, of the old: with an expanded key that belongs to no key. *)
Lemma acts_keys k key c t m : (m <= length key)%nat -> (m <= length (expandedKey c))%nat ->
  acts k (map (fun i => PutKey i (nth i key 0)) (seq 0 m)) (c, t) = (set_xk c (firstn m key ++ skipn m (expandedKey c)), {| pc := m + pc t; locals := locals t; into := into t |}).
Proof.
  induction m as [|m IH]; intros H1 H2; [destruct c, t; reflexivity|]. rewrite seq_S, map_app. unfold acts in *. rewrite fold_left_app, IH by lia. cbn [map fold_left act fst snd pc locals into Nat.add expandedKey set_xk]. f_equal. unfold set_xk. cbn [stateSize impl expandedTweak tmpData1 tmpData2]. f_equal.
  rewrite (firstn_S_nth key m) by lia. destruct (skipn m (expandedKey c)) as [|x r] eqn:E; [apply (f_equal (@length Z)) in E; rewrite skipn_length in E; cbn in E; lia|]. destruct (skipn_cons_nth _ _ _ _ E) as [_ E']. rewrite E', <- app_assoc.
  pose proof (set_nth_app (firstn m key) r x (nth m key 0)) as X. rewrite firstn_length, Nat.min_l in X by lia. rewrite X. reflexivity.
Qed.
Definition with_key (e : bool) (b d key' : list Z) : list call := [{| on := 0; what := Words e; src := b; dst := d |}; {| on := 0; what := NewKey key'; src := []; dst := [] |}].
Theorem C77_key_mixture C p key t0 t1 e b d key' m : in_force (C 0%nat) p key t0 t1 -> (nw p <= length b)%nat -> (nw p <= length d)%nat -> (nw p <= length key')%nat -> (m <= nw p)%nat ->
  exists C' T', reached (with_key e b d key') C C' T' /\ returned (with_key e b d key') C' T' 0 /\ returned (with_key e b d key') C' T' 1 /\
    into (T' 0%nat) = overwrite d 0 ((if e then enc_ext else dec_ext) word64 p (firstn m key' ++ skipn m (extend_key word64 key)) (extend_tweak word64 t0 t1) (firstn (nw p) b)).
Proof.
  intros F Lb Ld Lk' Hm. destruct (in_force_inv _ _ _ _ _ F) as [v [-> [I CI]]]. rewrite params_nw in *. pose proof I as [_ [_ [Lk _]]]. destruct CI as [Ev [_ [Ek [Et [L1 L2]]]]]. set (calls := with_key e b d key').
  set (ka := {| on := 0; what := Words e; src := b; dst := d |}). set (kb := {| on := 0; what := NewKey key'; src := []; dst := [] |}). set (n := qwords v) in *. set (f := fun i => PutKey i (nth i key' 0)). set (last := PutKey n (fold_left wxor (firstn n key') KEY_SCHEDULE_CONST)).
  assert (LX : length (extend_key word64 key) = (n + 1)%nat) by (apply ekl; exact Lk).
  assert (Pa : program (C 0%nat) (Words e) = map (Body true) (body_of e v)) by (unfold program; rewrite Ev; reflexivity). assert (Pb : program (C 0%nat) (NewKey key') = map f (seq 0 m) ++ map f (seq m (n - m)) ++ [last]).
  { unfold program. rewrite Ev. fold n. fold f. fold last. pose proof (seq_app m (n - m) 0) as X. replace (m + (n - m))%nat with n in X by lia. rewrite X. rewrite map_app, <- app_assoc. reflexivity. }
  destruct (solo calls 1 kb (map f (seq 0 m)) eq_refl (map f (seq m (n - m)) ++ [last]) C (started calls)) as [C1 [T1 [R1 [E1 [F1 [G1 H1]]]]]]; [cbn [pc started what kb on skipn]; exact Pb|]. cbn [on kb] in E1, F1, H1.
  assert (LX' : length (expandedKey (C 0%nat)) = (n + 1)%nat) by (rewrite Ek; exact LX). unfold f in E1. rewrite acts_keys in E1 by lia. injection E1 as E1 E1t. assert (P1 : forall k, program (C1 0%nat) k = program (C 0%nat) k) by (intros k; rewrite E1; reflexivity). assert (T10 : T1 0%nat = started calls 0%nat) by (apply G1; discriminate).
  destruct (solo calls 0 ka (map (Body true) (body_of e v)) eq_refl [] C1 T1) as [C2 [T2 [R2 [E2 [F2 [G2 H2]]]]]]; [rewrite T10, app_nil_r; cbn [pc started what ka on skipn]; rewrite P1; exact Pa|]. cbn [on ka] in E2, F2, H2. rewrite T10 in E2.
  destruct (acts_body_words ka e v (C1 0%nat) (started calls 0%nat) Lb Ld ltac:(reflexivity)) as [lc Eb]. rewrite Eb in E2. clear Eb. injection E2 as E2 E2t. assert (T21 : T2 1%nat = T1 1%nat) by (apply G2; discriminate).
  destruct (solo calls 1 kb (map f (seq m (n - m)) ++ [last]) eq_refl [] C2 T2) as [C3 [T3 [R3 [E3 [F3 [G3 H3]]]]]]; [cbn [on kb what] in *; rewrite T21, app_nil_r, E2; exact H1|]. cbn [on kb] in E3, F3, H3. assert (T30 : T3 0%nat = T2 0%nat) by (apply G3; discriminate).
  assert (P3 : forall k, program (C3 0%nat) k = program (C 0%nat) k).
  { intros k. assert (X : forall ms s, program (fst (acts kb ms s)) k = program (fst s) k) by (induction ms as [|x ms IH]; intros s; [reflexivity|]; unfold acts in *; cbn [fold_left]; rewrite IH; apply act_program). pose proof (X (map f (seq m (n - m)) ++ [last]) (C2 0%nat, T2 1%nat)) as Y. rewrite <- E3 in Y. cbn [fst] in Y. rewrite Y, E2. apply P1. }
  assert (Q3 : pc (T3 1%nat) = length (program (C 0%nat) (NewKey key'))).
  { assert (X : forall ms s, pc (snd (acts kb ms s)) = (length ms + pc (snd s))%nat) by (induction ms as [|x ms IH]; intros s; [reflexivity|]; unfold acts in *; cbn [fold_left]; rewrite IH, act_pc; cbn [length]; lia). pose proof (X (map f (seq m (n - m)) ++ [last]) (C2 0%nat, T2 1%nat)) as Y. rewrite <- E3 in Y. cbn [snd] in Y. rewrite Y, T21, E1t, Pb. cbn [pc started]. rewrite !app_length, !map_length, !seq_length. cbn [length]. lia. }
  exists C3, T3. split; [|split; [|split]].
  - destruct (reach_trans _ _ _ _ R1 (reach_trans _ _ _ _ R2 R3)) as [q R]. exists q. exact R.
  - exists ka. split; [reflexivity|]. cbn [on ka what]. rewrite P3, Pa, T30, E2t. cbn [pc started]. rewrite map_length. lia.
  - exists kb. split; [reflexivity|]. cbn [on kb what]. rewrite P3. exact Q3.
  - rewrite T30, E2t. cbn [into]. change (into (started calls 0%nat)) with d. f_equal. rewrite E1. cbn [expandedKey set_xk expandedTweak]. rewrite Ek, Et. cbn [src ka]. destruct e; [apply enc_body_spec|apply dec_body_spec]; rewrite ?firstn_length, ?app_length, ?skipn_length, ?firstn_length, ?LX; try lia; reflexivity.
Qed.
Print Assumptions C77_key_mixture.
(** SetKey and SetTweak, when no other call uses the cipher meanwhile, have the effect they have alone. *)
Lemma alone calls C m C' T' i k : nth_error calls i = Some k -> (forall i' k', nth_error calls i' = Some k' -> on k' = on k -> i' = i) -> xsteps calls m (C, started calls) (C', T') ->
  (C' (on k), T' i) = acts k (firstn (pc (T' i)) (program (C (on k)) (what k))) (C (on k), started calls i) /\ program (C' (on k)) (what k) = program (C (on k)) (what k) /\ (pc (T' i) <= length (program (C (on k)) (what k)))%nat.
Proof.
  intros Hk Sole H. remember (C, started calls) as s0 eqn:E0. remember (C', T') as s1 eqn:E1. revert C' T' E1. induction H as [s|m s s1 s2 H IH St]; intros C' T' E1; subst.
  - injection E1 as <- <-. cbn [started pc firstn acts fold_left]. split; [reflexivity|]. split; [reflexivity|lia].
  - destruct s1 as [C1 T1]. destruct (IH eq_refl C1 T1 eq_refl) as [I1 [I2 I3]]. clear IH. inversion St as [C2 T2 i' k' c Hk' Hm]; subst. destruct (Nat.eq_dec i' i) as [->|N].
    + rewrite Hk in Hk'. injection Hk' as <-. unfold put. rewrite !Nat.eqb_refl. rewrite act_pc, act_program. split; [|split; [exact I2|rewrite I2 in Hm; apply nth_error_Some; congruence]].
      rewrite I2 in Hm. assert (F : firstn (S (pc (T1 i))) (program (C (on k)) (what k)) = firstn (pc (T1 i)) (program (C (on k)) (what k)) ++ [c]).
      { clear - Hm. revert Hm. generalize (program (C (on k)) (what k)) (pc (T1 i)). intros l. induction l as [|x l IH]; intros [|q] E; cbn in *; try discriminate; [injection E as ->; reflexivity|]. rewrite (IH q E). reflexivity. }
      rewrite F. unfold acts. rewrite fold_left_app. unfold acts in I1. rewrite <- I1. cbn [fold_left fst snd]. destruct (act k c (C1 (on k)) (T1 i)); reflexivity.
    + assert (on k' <> on k) by (intros E; apply N; exact (Sole i' k' Hk' E)). unfold put. destruct (Nat.eqb_spec (on k) (on k')); [congruence|]. destruct (Nat.eqb_spec i i'); [congruence|]. auto.
Qed.
Theorem C77_setter_alone calls C C' T' i k p key t0 t1 : in_force (C (on k)) p key t0 t1 -> nth_error calls i = Some k -> (forall i' k', nth_error calls i' = Some k' -> on k' = on k -> i' = i) ->
  reached calls C C' T' -> returned calls C' T' i ->
  match what k with
  | NewKey key' => (nw p <= length key')%nat -> SetKey (C (on k)) key' = Some (C' (on k))
  | NewTweak a b => SetTweak (C (on k)) (Some [a; b]) = Some (C' (on k))
  | _ => True
  end.
Proof.
  intros F Hk Sole [m R] [k0 [Hk0 Hpc]]. rewrite Hk in Hk0. injection Hk0 as <-. destruct (in_force_inv _ _ _ _ _ F) as [v [-> [I CI]]]. rewrite params_nw. pose proof I as [_ [_ [Lk _]]]. destruct CI as [Ev [_ [Ek [Et _]]]].
  destruct (alone _ _ _ _ _ _ _ Hk Sole R) as [A1 [A2 _]]. rewrite A2 in Hpc. rewrite Hpc, firstn_all in A1. clear A2 Hpc. destruct (what k) as [e|e|key'|a b]; auto.
  - intros Lk'. assert (LX : length (expandedKey (C (on k))) = (qwords v + 1)%nat) by (rewrite Ek; apply ekl; exact Lk). unfold program in A1. rewrite Ev in A1. unfold acts in A1. rewrite fold_left_app in A1. fold (acts k) in A1.
    pose proof (acts_keys k key' (C (on k)) (started calls i) (qwords v) Lk' ltac:(lia)) as X. unfold acts in X at 1. rewrite X in A1. clear X. cbn [fold_left fst snd act] in A1. injection A1 as A1 _. rewrite A1. unfold SetKey. rewrite (setKey_spec (qwords v)) by (exact LX || apply qwords_pos).
    destruct (Nat.ltb_spec (length key') (qwords v)); [lia|]. f_equal. unfold set_xk. cbn [stateSize impl expandedTweak expandedKey tmpData1 tmpData2]. f_equal. unfold extend_key.
    destruct (skipn (qwords v) (expandedKey (C (on k)))) as [|x r] eqn:Er; [apply (f_equal (@length Z)) in Er; rewrite skipn_length in Er; cbn in Er; lia|]. assert (r = []) by (apply (f_equal (@length Z)) in Er; rewrite skipn_length in Er; cbn in Er; destruct r; [reflexivity|cbn in Er; lia]). subst r.
    pose proof (set_nth_app (firstn (qwords v) key') [] x (fold_left wxor (firstn (qwords v) key') KEY_SCHEDULE_CONST)) as X. rewrite firstn_length, Nat.min_l in X by lia. rewrite X. reflexivity.
  - unfold program, acts in A1. cbn [fold_left fst snd act] in A1. injection A1 as A1 _. rewrite A1. unfold SetTweak. reflexivity.
Qed.
Print Assumptions C77_setter_alone.
(** A case: the result belongs neither to the key before nor to the key after. *)
Theorem C77_key_refuted : exists C C' T' key key' b d, in_force (C 0%nat) tf256 key 0 0 /\ reached (with_key true b d key') C C' T' /\ returned (with_key true b d key') C' T' 0 /\ returned (with_key true b d key') C' T' 1 /\
  into (T' 0%nat) <> overwrite d 0 (threefish_encrypt word64 tf256 key 0 0 b) /\ into (T' 0%nat) <> overwrite d 0 (threefish_encrypt word64 tf256 key' 0 0 b).
Proof.
  destruct (NewSize 256) as [c| |] eqn:E; try discriminate. assert (F : in_force c tf256 (repeat 0 4) 0 0) by (exists c, (repeat 0 4, 0, 0), []; repeat split; [eapply (by_NewSize 256); [reflexivity|exact E]|constructor]).
  destruct (C77_key_mixture (fun _ => c) tf256 (repeat 0 4) 0 0 true [1; 2; 3; 4] [0; 0; 0; 0] [5; 6; 7; 8] 2 F ltac:(vm_compute; lia) ltac:(vm_compute; lia) ltac:(vm_compute; lia) ltac:(vm_compute; lia)) as [C' [T' [R [R0 [R1 H]]]]].
  exists (fun _ => c), C', T', (repeat 0 4), [5; 6; 7; 8], [1; 2; 3; 4], [0; 0; 0; 0]. split; [exact F|]. split; [exact R|]. split; [exact R0|]. split; [exact R1|]. rewrite H. split; vm_compute; discriminate.
Qed.
Print Assumptions C77_key_refuted.
(** The hypotheses are met: Encrypt and Decrypt on a cipher made by New, beside Encrypt64 on the same one; and two blocks whose answers differ. *)
Example C77_case : exists c, New (repeat 7 32) (Some [1; 2]) = Ret c /\ in_force c tf256 (words_of_bytes 4 (repeat 7 32)) 1 2 /\ stateSize c = 64 * Z.of_nat (nw tf256) /\
  crypting [{| on := 0; what := Bytes true; src := repeat 1 32; dst := repeat 0 32 |}; {| on := 0; what := Words false; src := [1; 2; 3; 4]; dst := repeat 0 5 |}] 0 tf256 c /\
  block true tf256 (words_of_bytes 4 (repeat 7 32)) 1 2 (words_of_bytes 4 (repeat 1 32)) <> block false tf256 (words_of_bytes 4 (repeat 7 32)) 1 2 (words_of_bytes 4 (repeat 2 32)).
Proof.
  destruct (New (repeat 7 32) (Some [1; 2])) as [c| |] eqn:E; try discriminate. exists c. split; [reflexivity|]. assert (Ss : stateSize c = 64 * Z.of_nat (nw tf256)) by (vm_compute in E; injection E as <-; reflexivity). split.
  - exists c, (words_of_bytes (nw tf256) (repeat 7 32), 1, 2), []. repeat split; [|constructor]. eapply (by_New (repeat 7 32) (Some [1; 2])); [reflexivity|reflexivity|exact E].
  - split; [exact Ss|]. split; [|vm_compute; discriminate]. intros k [<-|[<-|[]]] _; unfold room; cbn; [split; [exact Ss|lia]|lia].
Qed.
