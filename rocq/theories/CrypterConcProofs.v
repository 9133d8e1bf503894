(** * Lemmas for ciphers shared by goroutines. *)
From Coq Require Import ZArith Arith List Bool Lia.
From Verif Require Import TfLang TfSpec TfAlgebra TfSym TfProofs TfConform CrypterModel CrypterSpec CrypterContract CrypterProofs CrypterProofs2 CrypterProofs3 CrypterProofs4 CrypterConc.
Import ListNotations.
Open Scope Z_scope.

(** ** The shape of the bodies: read the input, work on locals, write the output. *)
Definition local (v : var) : bool := match v with B _ | K _ | T _ | Tmp => true | _ => false end.
(** The output words are written in order or in reverse order. *)
Definition turn (n : nat) (rev : bool) (j : nat) : nat := if rev then (n - 1 - j)%nat else j.
Definition backwards (e : bool) (v : variant) : bool := match v with V256 => false | _ => negb e end.
Lemma turn_lt n rev j : (j < n)%nat -> (turn n rev j < n)%nat. Proof. unfold turn. destruct rev; lia. Qed.
Lemma turn_turn n rev j : (j < n)%nat -> turn n rev (turn n rev j) = j. Proof. unfold turn. destruct rev; lia. Qed.
Definition shape (n : nat) (rev : bool) (body : list stmt) : bool :=
  ((2 * n <=? length body)%nat
   && forallb (fun q => match nth_error body q with Some (Assign (B b) (EV (In i))) => ((b =? q) && (i =? q))%nat | _ => false end) (seq 0 n)
   && forallb (fun s => local (lhs s) && vars_ok nonmem (rhs s)) (firstn (length body - 2 * n) (skipn n body))
   && forallb (fun j => match nth_error body (length body - n + j) with Some (Assign (Out o) e) => (o =? turn n rev j)%nat && vars_ok nonmem e | _ => false end) (seq 0 n))%bool.
Lemma shape_ok e v : shape (qwords v) (backwards e v) (body_of e v) = true.
Proof. destruct e, v; vm_compute; reflexivity. Qed.
Lemma local_nonmem v : local v = true -> nonmem v = true. Proof. destruct v; auto. Qed.
Lemma exec1_value r s : exec1 r s = upd r (lhs s) (value r s). Proof. destruct s; reflexivity. Qed.
Lemma upd_same r v z : upd r v z v = z.
Proof. unfold upd. assert (var_eqb v v = true) as -> by (destruct v; cbn; try apply Nat.eqb_refl; reflexivity). reflexivity. Qed.
Lemma upd_other r v z u : u <> v -> upd r v z u = r u.
Proof. intros N. unfold upd. rewrite var_eqb_neq by exact N. reflexivity. Qed.
Lemma value_agree r r' s : nonmem (lhs s) = true \/ (exists v e, s = Assign v e) -> vars_ok nonmem (rhs s) = true -> (forall v, nonmem v = true -> r v = r' v) -> value r s = value r' s.
Proof.
  intros H V A. pose proof (eval_vars_ok nonmem (rhs s) r r' V A) as E. destruct s as [v e|v e|v e]; cbn [value rhs lhs] in *; [exact E| |];
    (destruct H as [H|[? [? H]]]; [|discriminate]); rewrite E, (A v H); reflexivity.
Qed.

Section Shape.
  Variables (n : nat) (rev : bool) (body : list stmt).
  Hypothesis Sh : shape n rev body = true.
  Notation turn := (turn n rev).
  Let L := length body.
  Lemma sh_len : (2 * n <= L)%nat.
  Proof. unfold shape in Sh. rewrite !andb_true_iff in Sh. destruct Sh as [[[H _] _] _]. apply Nat.leb_le. exact H. Qed.
  Lemma sh_read q : (q < n)%nat -> nth_error body q = Some (Assign (B q) (EV (In q))).
  Proof.
    intros Hq. unfold shape in Sh. rewrite !andb_true_iff in Sh. destruct Sh as [[[_ H] _] _]. rewrite forallb_forall in H. specialize (H q ltac:(apply in_seq; lia)).
    destruct (nth_error body q) as [[[b| | | | | | |] [[| | | |i| | |]| | | | | |]| |]|]; try discriminate. apply andb_true_iff in H. destruct H as [H1 H2]. apply Nat.eqb_eq in H1, H2. subst. reflexivity.
  Qed.
  Lemma sh_mid q s : (n <= q < L - n)%nat -> nth_error body q = Some s -> local (lhs s) = true /\ vars_ok nonmem (rhs s) = true.
  Proof.
    intros Hq E. unfold shape in Sh. rewrite !andb_true_iff in Sh. destruct Sh as [[_ H] _]. rewrite forallb_forall in H. apply andb_true_iff. apply H.
    assert (X : nth_error (firstn (L - 2 * n) (skipn n body)) (q - n) = Some s).
    { replace body with (firstn n body ++ skipn n body) in E by apply firstn_skipn. rewrite nth_error_app2 in E by (rewrite firstn_length; lia). rewrite firstn_length, Nat.min_l in E by lia.
      rewrite <- (firstn_skipn (L - 2 * n) (skipn n body)) in E. rewrite nth_error_app1 in E; [exact E|]. rewrite firstn_length, skipn_length. fold L. lia. }
    eapply nth_error_In. exact X.
  Qed.
  Lemma sh_out j : (j < n)%nat -> exists e, nth_error body (L - n + j) = Some (Assign (Out (turn j)) e) /\ vars_ok nonmem e = true.
  Proof.
    intros Hj. unfold shape in Sh. rewrite !andb_true_iff in Sh. destruct Sh as [_ H]. rewrite forallb_forall in H. specialize (H j ltac:(apply in_seq; lia)). fold L in H.
    destruct (nth_error body (L - n + j)) as [[[| | | | |o| |] e| |]|]; try discriminate. apply andb_true_iff in H. destruct H as [H1 H2]. apply Nat.eqb_eq in H1. subst. eauto.
  Qed.
  Lemma exec_S q s r : nth_error body q = Some s -> exec (firstn (S q) body) r = exec1 (exec (firstn q body) r) s.
  Proof.
    intros E. assert (F : firstn (S q) body = firstn q body ++ [s]).
    { clear Sh L. revert q E. induction body as [|x b IH]; intros [|q] E; cbn in *; try discriminate; [injection E as ->; reflexivity|]. rewrite (IH q E). reflexivity. }
    rewrite F. unfold exec. rewrite fold_left_app. reflexivity.
  Qed.
  Lemma exec_reads r q : (q <= n)%nat -> forall v, exec (firstn q body) r v = match v with B j => if (j <? q)%nat then r (In j) else r v | _ => r v end.
  Proof.
    induction q as [|q IH]; intros Hq v; [destruct v; reflexivity|]. rewrite (exec_S q _ r (sh_read q ltac:(lia))). rewrite exec1_value. cbn [lhs value eval]. rewrite (IH ltac:(lia) (In q)).
    destruct (var_eqb v (B q)) eqn:E.
    - apply var_eqb_eq in E. subst. rewrite upd_same. destruct (Nat.ltb_spec q (S q)); [reflexivity|lia].
    - rewrite upd_other by (intros ->; cbn in E; rewrite Nat.eqb_refl in E; discriminate). rewrite IH by lia. destruct v; try reflexivity.
      destruct (Nat.ltb_spec i q), (Nat.ltb_spec i (S q)); try reflexivity; try lia. assert (i = q) by lia. subst. cbn in E. rewrite Nat.eqb_refl in E. discriminate.
  Qed.
  Lemma sh_at q s : nth_error body q = Some s -> (q < n)%nat /\ s = Assign (B q) (EV (In q)) \/ (n <= q < L - n)%nat /\ local (lhs s) = true /\ vars_ok nonmem (rhs s) = true
    \/ exists j e, (j < n)%nat /\ q = (L - n + j)%nat /\ s = Assign (Out (turn j)) e /\ vars_ok nonmem e = true.
  Proof.
    intros E. assert (Hq : (q < L)%nat) by (apply nth_error_Some; congruence). pose proof sh_len. destruct (Nat.lt_ge_cases q n) as [H1|H1].
    - left. rewrite (sh_read q H1) in E. injection E as <-. auto.
    - destruct (Nat.lt_ge_cases q (L - n)) as [H2|H2].
      + right. left. split; [lia|]. apply (sh_mid q); [lia|exact E].
      + right. right. destruct (sh_out (q - (L - n)) ltac:(lia)) as [e [E' V]]. exists (q - (L - n))%nat, e. replace (L - n + (q - (L - n)))%nat with q in * by lia. rewrite E in E'. injection E' as ->. repeat split; auto; lia.
  Qed.
  Definition given (v : var) : bool := match v with In _ | XK _ | XT _ => true | _ => false end.
  Lemma exec_keeps r q v : given v = true -> (q <= L)%nat -> exec (firstn q body) r v = r v.
  Proof.
    intros G. induction q as [|q IH]; intros Hq; [reflexivity|]. destruct (nth_error body q) as [s|] eqn:E; [|apply nth_error_None in E; lia]. rewrite (exec_S q s r E), exec1_value, upd_other; [apply IH; lia|].
    intros ->. destruct (sh_at q s E) as [[_ ->]|[[_ [Lo _]]|[j [e [_ [_ [-> _]]]]]]]; cbn in G; try discriminate. destruct (lhs s); discriminate.
  Qed.
  (** Two environments that agree on the words of the block, the key, the tweak and the locals. *)
  Definition alike (r r' : env) := forall v, match v with In i => (i < n)%nat | Out _ => False | _ => True end -> r v = r' v.
  Lemma exec_alike r r' q : (q <= L)%nat -> alike r r' -> alike (exec (firstn q body) r) (exec (firstn q body) r').
  Proof.
    intros Hq A. induction q as [|q IH]; [exact A|]. specialize (IH ltac:(lia)). destruct (nth_error body q) as [s|] eqn:E; [|apply nth_error_None in E; lia]. rewrite !(exec_S q s _ E), !exec1_value.
    assert (N : forall v, nonmem v = true -> exec (firstn q body) r v = exec (firstn q body) r' v) by (intros v Hv; apply IH; destruct v; try exact I; discriminate).
    destruct (sh_at q s E) as [[Hq1 ->]|[[_ [Lo V]]|[j [e [_ [_ [-> _]]]]]]]; intros v Hv.
    - cbn [lhs value eval]. unfold upd. destruct (var_eqb v (B q)); [apply IH; exact Hq1|apply IH; exact Hv].
    - unfold upd. destruct (var_eqb v (lhs s)); [|apply IH; exact Hv]. apply value_agree; [left; apply local_nonmem; exact Lo|exact V|exact N].
    - cbn [lhs]. rewrite !upd_other; [apply IH; exact Hv| |]; intros ->; exact Hv.
  Qed.
  Lemma exec_out r j e : (j < n)%nat -> nth_error body (L - n + j) = Some (Assign (Out (turn j)) e) -> exec body r (Out (turn j)) = eval (exec (firstn (L - n + j) body) r) e.
  Proof.
    intros Hj E. pose proof sh_len as HL. assert (G : forall d, (S (L - n + j) + d <= L)%nat -> exec (firstn (S (L - n + j) + d) body) r (Out (turn j)) = eval (exec (firstn (L - n + j) body) r) e).
    { induction d as [|d IH]; intros Hd.
      - rewrite Nat.add_0_r, (exec_S _ _ _ E), exec1_value. apply upd_same.
      - rewrite Nat.add_succ_r. destruct (nth_error body (S (L - n + j) + d)) as [s|] eqn:E'; [|apply nth_error_None in E'; lia]. rewrite (exec_S _ s _ E'), exec1_value, upd_other; [apply IH; lia|].
        destruct (sh_at _ s E') as [[Hq1 ->]|[[Hq1 _]|[j' [e' [Hj' [Hq1 [-> _]]]]]]]; [discriminate|lia|]. cbn [lhs]. intros X. injection X as X. apply (f_equal turn) in X. rewrite !turn_turn in X by assumption. lia. }
    specialize (G (n - S j)%nat ltac:(lia)). replace (S (L - n + j) + (n - S j))%nat with L in G by lia. assert (FA : firstn L body = body) by apply firstn_all. rewrite FA in G. exact G.
  Qed.
  Lemma out_alike r r' j : (j < n)%nat -> alike r r' -> exec body r (Out j) = exec body r' (Out j).
  Proof.
    intros Hj A. pose proof sh_len as HL. rewrite <- (turn_turn n rev j Hj). pose proof (turn_lt n rev j Hj) as Hj'. destruct (sh_out _ Hj') as [e [E V]]. rewrite !(exec_out _ _ e Hj' E). apply (eval_vars_ok nonmem); [exact V|]. intros v Hv. apply exec_alike; [lia|exact A|]. destruct v; try exact I; discriminate.
  Qed.
End Shape.

Lemma nth_run_body n body input xk xt j : (j < n)%nat -> nth j (run_body n body input xk xt) 0 = exec body (call_env input xk xt) (Out j).
Proof.
  intros Hj. unfold run_body, outputs. rewrite (nth_indep _ 0 ((fun i => exec body (call_env input xk xt) (Out i)) 0%nat)) by (rewrite map_length, seq_length; exact Hj).
  rewrite (map_nth (fun i => exec body (call_env input xk xt) (Out i))), seq_nth by exact Hj. reflexivity.
Qed.
Lemma nth_words_of_bytes n : forall b j, (j < n)%nat -> nth j (words_of_bytes n b) 0 = word_of_bytes (firstn 8 (skipn (j * 8) b)).
Proof.
  induction n as [|n IH]; intros b j Hj; [lia|]. destruct j as [|j]; [reflexivity|]. cbn [words_of_bytes nth]. rewrite IH by lia. rewrite skipn_skipn'. reflexivity.
Qed.
Lemma load_word n b j : (j < n)%nat -> (8 * n <= length b)%nat -> uint64le (skipn (j * 8) b) = nth j (words_of_bytes n b) 0.
Proof. intros Hj Hb. rewrite nth_words_of_bytes by exact Hj. apply uint64le_spec. rewrite skipn_length. lia. Qed.
Lemma overwrite_more d W w : (8 * (length W + 1) <= length d)%nat ->
  blit (overwrite d 0 (bytes_of_words W)) (length W * 8) (put_uint64le w) = overwrite d 0 (bytes_of_words (W ++ [w])).
Proof.
  intros Hd. rewrite put_uint64le_spec. unfold blit, overwrite, bytes_of_words. cbn [firstn app]. rewrite flat_map_app. cbn [flat_map]. rewrite app_nil_r. fold (bytes_of_words W). rewrite app_length, bytes_of_words_length, bytes_of_word_length, !Nat.add_0_l.
  replace (length W * 8)%nat with (length (bytes_of_words W)) by (rewrite bytes_of_words_length; lia). rewrite firstn_app, firstn_all, Nat.sub_diag. cbn [firstn]. rewrite app_nil_r, <- app_assoc. do 2 f_equal.
  rewrite skipn_app. rewrite skipn_all2 by lia. cbn [app]. rewrite skipn_skipn'. f_equal. rewrite bytes_of_words_length. lia.
Qed.

(** ** One cipher and the calls on it, none of them a setter. *)
Section One.
  Variables (calls : list call) (ci : nat) (v : variant) (ss : Z) (xk xt : list Z).
  Let n := qwords v.
  Definition fit (k : call) : Prop :=
    match what k with
    | Bytes _ => ss = 64 * Z.of_nat n /\ (8 * n <= length (src k))%nat /\ (8 * n <= length (dst k))%nat
    | Words _ => (n <= length (src k))%nat /\ (n <= length (dst k))%nat
    | _ => False
    end.
  Hypothesis Fit : forall k, List.In k calls -> on k = ci -> fit k.
  Definition ok (j : nat) (w : Z) : Prop := exists k e, List.In k calls /\ on k = ci /\ what k = Bytes e /\ w = nth j (words_of_bytes n (src k)) 0.
  Definition good (j : nat) (w : Z) : Prop := exists k e M, List.In k calls /\ on k = ci /\ what k = Bytes e /\ length M = n /\ (forall j', (j' < n)%nat -> ok j' (nth j' M 0)) /\ w = nth j (run_body n (body_of e v) M xk xt) 0.
  Definition CInv (c : cipher) : Prop := impl c = v /\ stateSize c = ss /\ expandedKey c = xk /\ expandedTweak c = xt /\ length (tmpData1 c) = n /\ length (tmpData2 c) = n.
  Definition change (c c' : cipher) : Prop :=
    (forall j, (j < n)%nat -> nth j (tmpData1 c') 0 = nth j (tmpData1 c) 0 \/ ok j (nth j (tmpData1 c') 0)) /\
    (forall j, (j < n)%nat -> nth j (tmpData2 c') 0 = nth j (tmpData2 c) 0 \/ good j (nth j (tmpData2 c') 0)).
  Record BInv (k : call) (e : bool) (c : cipher) (t : thread) : Prop := {
    b_pc : (pc t <= 2 * n + length (body_of e v))%nat;
    b_in : forall j, (j < n)%nat -> (j < pc t)%nat -> ok j (nth j (tmpData1 c) 0);
    b_loc : (pc t <= n + length (body_of e v))%nat -> exists M, length M = n /\ (forall j, (j < n)%nat -> (n + j < pc t)%nat -> ok j (nth j M 0)) /\
              forall u, local u = true -> locals t u = exec (firstn (pc t - n) (body_of e v)) (call_env M xk xt) u;
    b_out : forall j, (j < n)%nat -> (length (body_of e v) + turn n (backwards e v) j < pc t)%nat -> good j (nth j (tmpData2 c) 0);
    b_dst : exists W, length W = (pc t - (n + length (body_of e v)))%nat /\ into t = overwrite (dst k) 0 (bytes_of_words W) /\ forall j, (j < length W)%nat -> good j (nth j W 0) }.
  Record WInv (k : call) (e : bool) (t : thread) : Prop := {
    w_pc : (pc t <= length (body_of e v))%nat;
    w_loc : forall u, local u = true -> locals t u = exec (firstn (pc t) (body_of e v)) (call_env (src k) xk xt) u;
    w_len : length (into t) = length (dst k);
    w_done : forall j, (j < n)%nat -> (length (body_of e v) - n + turn n (backwards e v) j < pc t)%nat -> nth j (into t) 0 = nth j (run_body n (body_of e v) (src k) xk xt) 0;
    w_rest : forall j, (n <= j)%nat -> nth j (into t) 0 = nth j (dst k) 0 }.
  Definition TInv (k : call) (c : cipher) (t : thread) : Prop := match what k with Bytes e => BInv k e c t | Words e => WInv k e t | _ => False end.
  Lemma tinv_change k c c' t : change c c' -> TInv k c t -> TInv k c' t.
  Proof.
    intros [C1 C2] H. unfold TInv in *. destruct (what k) as [e|e|key|a b]; try exact H. destruct H as [P I Lo O D]. constructor; auto.
    - intros j Hj Hp. destruct (C1 j Hj) as [-> |G]; auto.
    - intros j Hj Hp. destruct (C2 j Hj) as [-> |G]; auto.
  Qed.
  Lemma change_refl c : change c c. Proof. split; auto. Qed.
  (** A statement of the body, seen from locals that agree with a run of it on M. *)
  Lemma body_mid e q s M k c t private : CInv c -> nth_error (body_of e v) q = Some s -> (forall u, local u = true -> locals t u = exec (firstn q (body_of e v)) (call_env M xk xt) u) ->
    forall u, nonmem u = true -> sees private k c t u = exec (firstn q (body_of e v)) (call_env M xk xt) u.
  Proof.
    intros [_ [_ [Ek [Et _]]]] E Lo u Hu. assert (Hq : (q <= length (body_of e v))%nat) by (apply Nat.lt_le_incl, nth_error_Some; congruence). pose proof (shape_ok e v) as Sh.
    destruct u; try discriminate; try (cbn [sees]; apply Lo; reflexivity).
    - cbn [sees]. rewrite (exec_keeps _ _ _ Sh) by (reflexivity || exact Hq). cbn [call_env]. rewrite Ek. reflexivity.
    - cbn [sees]. rewrite (exec_keeps _ _ _ Sh) by (reflexivity || exact Hq). cbn [call_env]. rewrite Et. reflexivity.
  Qed.
  Lemma prog_bytes c k e p m : CInv c -> what k = Bytes e -> ss = 64 * Z.of_nat n -> nth_error (program c (what k)) p = Some m ->
    ((p < n)%nat /\ m = Load p) \/ (exists s, (n <= p < n + length (body_of e v))%nat /\ nth_error (body_of e v) (p - n) = Some s /\ m = Body false s) \/
    ((n + length (body_of e v) <= p < 2 * n + length (body_of e v))%nat /\ m = Store (p - (n + length (body_of e v)))).
  Proof.
    intros [Ev [Es _]] -> Hs H. unfold program in H. rewrite Ev, Es, Hs in H. replace (Z.to_nat (64 * Z.of_nat n / 64)) with n in H by (rewrite Z.mul_comm, Z.div_mul by lia; symmetry; apply Nat2Z.id).
    destruct (Nat.lt_ge_cases p n) as [H1|H1].
    - left. rewrite nth_error_app1 in H by (rewrite map_length, seq_length; exact H1). rewrite nth_error_map in H. rewrite (nth_error_nth' (seq 0 n) 0%nat) in H by (rewrite seq_length; exact H1). rewrite seq_nth in H by exact H1. injection H as <-. auto.
    - rewrite nth_error_app2 in H by (rewrite map_length, seq_length; exact H1). rewrite map_length, seq_length in H. destruct (Nat.lt_ge_cases p (n + length (body_of e v))) as [H2|H2].
      + right. left. rewrite nth_error_app1 in H by (rewrite map_length; lia). rewrite nth_error_map in H. destruct (nth_error (body_of e v) (p - n)) as [s|] eqn:E; [|discriminate]. injection H as <-. exists s. auto.
      + right. right. rewrite nth_error_app2 in H by (rewrite map_length; lia). rewrite map_length in H. assert (H3 : (p - n - length (body_of e v) < n)%nat).
        { assert (X : nth_error (map Store (seq 0 n)) (p - n - length (body_of e v)) <> None) by congruence. apply nth_error_Some in X. rewrite map_length, seq_length in X. exact X. }
        rewrite nth_error_map in H. rewrite (nth_error_nth' (seq 0 n) 0%nat) in H by (rewrite seq_length; exact H3). rewrite seq_nth in H by exact H3. injection H as <-. split; [lia|f_equal; lia].
  Qed.
  Lemma nth_set_other l i j z : i <> j -> nth j (set_nth i z l) 0 = nth j l 0.
  Proof. intros N. rewrite nth_set_nth. destruct (Nat.eqb_spec j i); [congruence|reflexivity]. Qed.
  Lemma nth_set_here l i z : (i < length l)%nat -> nth i (set_nth i z l) 0 = z.
  Proof. intros H. rewrite nth_set_nth, Nat.eqb_refl. destruct (Nat.ltb_spec i (length l)); [reflexivity|lia]. Qed.
  Lemma bytes_step k e m c t : List.In k calls -> on k = ci -> what k = Bytes e -> CInv c -> BInv k e c t -> nth_error (program c (what k)) (pc t) = Some m ->
    CInv (fst (act k m c t)) /\ change c (fst (act k m c t)) /\ BInv k e (fst (act k m c t)) (snd (act k m c t)).
  Proof.
    intros Hk Ho Hw CI BI Hm. pose proof (Fit k Hk Ho) as F. unfold fit in F. rewrite Hw in F. destruct F as [Hs [Hsrc Hdst]]. pose proof (shape_ok e v) as Sh. fold n in Sh. set (body := body_of e v) in *. pose proof (sh_len _ _ _ Sh) as HL.
    pose proof CI as [Ev [Es [Ek [Et [L1 L2]]]]]. destruct BI as [P I Lo O D]. fold body in P, Lo, O, D.
    destruct (prog_bytes c k e (pc t) m CI Hw Hs Hm) as [[Hp ->]|[[s [Hp [Hn ->]]]|[Hp ->]]]; fold body in Hp.
    - (* Load *) cbn [act fst snd]. set (w := uint64le (skipn (pc t * 8) (src k))). assert (Gw : ok (pc t) w) by (exists k, e; repeat split; auto; apply load_word; assumption).
      split; [repeat split; auto; cbn; rewrite set_nth_length; exact L1|]. split.
      + split; [|auto]. intros j Hj. cbn. destruct (Nat.eq_dec (pc t) j) as [<-|N]; [right; rewrite nth_set_here by lia; exact Gw|left; apply nth_set_other; exact N].
      + constructor; fold body; cbn [pc locals into tmpData1 tmpData2 set_tmp1].
        * lia.
        * intros j Hj Hj'. destruct (Nat.eq_dec (pc t) j) as [<-|N]; [rewrite nth_set_here by lia; exact Gw|rewrite nth_set_other by exact N; apply I; lia].
        * intros _. destruct (Lo ltac:(lia)) as [M [LM [_ A]]]. exists M. split; [exact LM|]. split; [intros; lia|]. intros u Hu. rewrite (A u Hu). replace (pc t - n)%nat with 0%nat by lia. replace (S (pc t) - n)%nat with 0%nat by lia. reflexivity.
        * intros j Hj Hj'. lia.
        * destruct D as [W [LW D]]. exists W. split; [lia|exact D].
    - (* Body *) destruct (Lo ltac:(lia)) as [M [LM [OM A]]]. fold body in Hn. pose proof (body_mid e (pc t - n) s M k c t false CI Hn A) as See. fold body in See.
      assert (Hq : (pc t - n < length body)%nat) by lia. cbn [act]. set (z := value (sees false k c t) s).
      destruct (sh_at _ _ _ Sh _ _ Hn) as [[Hq1 ->]|[[Hq1 [Ls Vs]]|[j [ex [Hj [Hq1 [-> Vs]]]]]]].
      + cbn [lhs fst snd]. split; [exact CI|]. split; [apply change_refl|]. cbn [value eval sees] in z. constructor; fold body; cbn [pc locals into].
        * lia.
        * intros j Hj _. apply I; lia.
        * intros _. exists (set_nth (pc t - n) z M). split; [rewrite set_nth_length; exact LM|]. split.
          { intros j Hj Hj'. destruct (Nat.eq_dec (pc t - n) j) as [<-|N]; [rewrite nth_set_here by lia; unfold z; apply I; lia|rewrite nth_set_other by exact N; apply OM; lia]. }
          intros u Hu. replace (S (pc t) - n)%nat with (S (pc t - n)) by lia. rewrite (exec_reads _ _ _ Sh) by lia. unfold upd. destruct (var_eqb u (B (pc t - n))) eqn:Eu.
          { apply var_eqb_eq in Eu. subst u. destruct (Nat.ltb_spec (pc t - n) (S (pc t - n))); [|lia]. cbn [call_env]. rewrite nth_set_here by lia. reflexivity. }
          rewrite (A u Hu), (exec_reads _ _ _ Sh) by lia. destruct u as [i| | | | | | |]; try reflexivity; try discriminate Hu. assert (i <> pc t - n)%nat by (intros ->; cbn in Eu; rewrite Nat.eqb_refl in Eu; discriminate).
          cbn [call_env]. destruct (Nat.ltb_spec i (pc t - n)), (Nat.ltb_spec i (S (pc t - n))); [rewrite nth_set_other by lia; reflexivity|lia|lia|reflexivity].
        * intros j Hj Hj'. lia.
        * destruct D as [W [LW D]]. exists W. split; [lia|exact D].
      + assert (X : match lhs s with Out i => (set_tmp2 c (set_nth i z (tmpData2 c)), {| pc := S (pc t); locals := locals t; into := into t |}) | u => (c, {| pc := S (pc t); locals := upd (locals t) u z; into := into t |}) end = (c, {| pc := S (pc t); locals := upd (locals t) (lhs s) z; into := into t |})) by (destruct (lhs s); try reflexivity; discriminate Ls).
        cbn zeta. rewrite X. clear X. cbn [fst snd]. split; [exact CI|]. split; [apply change_refl|]. constructor; fold body; cbn [pc locals into].
        * lia.
        * intros j Hj _. apply I; lia.
        * intros _. exists M. split; [exact LM|]. split; [intros j Hj _; apply OM; lia|]. intros u Hu. replace (S (pc t) - n)%nat with (S (pc t - n)) by lia. rewrite (exec_S body _ s) by exact Hn. rewrite exec1_value. unfold upd. destruct (var_eqb u (lhs s)); [|apply A; exact Hu].
          unfold z. apply value_agree; [left; apply local_nonmem; exact Ls|exact Vs|exact See].
        * intros j Hj Hj'. lia.
        * destruct D as [W [LW D]]. exists W. split; [lia|exact D].
      + cbn [lhs fst snd]. set (o := turn n (backwards e v) j) in *. assert (Ho' : (o < n)%nat) by (apply turn_lt; exact Hj).
        assert (Gz : good o z).
        { exists k, e, M. split; [exact Hk|]. split; [exact Ho|]. split; [exact Hw|]. split; [exact LM|]. split; [intros j' Hj'; apply OM; lia|]. fold body. rewrite nth_run_body by exact Ho'. rewrite Hq1 in Hn. unfold o. rewrite (exec_out _ _ _ Sh _ j ex Hj Hn). rewrite <- Hq1. unfold z. cbn [value]. apply (eval_vars_ok nonmem); [exact Vs|exact See]. }
        split; [repeat split; auto; cbn; rewrite set_nth_length; exact L2|]. split.
        * split; [auto|]. intros j' Hj'. cbn. destruct (Nat.eq_dec o j') as [<-|N]; [right; rewrite nth_set_here by lia; exact Gz|left; apply nth_set_other; exact N].
        * constructor; fold body; cbn [pc locals into tmpData1 tmpData2 set_tmp2].
          -- lia.
          -- intros j' Hj' _. apply I; lia.
          -- intros Hp'. exists M. split; [exact LM|]. split; [intros j' Hj' _; apply OM; lia|]. intros u Hu. replace (S (pc t) - n)%nat with (S (pc t - n)) by lia. rewrite (exec_S body _ _ _ Hn). rewrite exec1_value. cbn [lhs]. rewrite upd_other by (intros ->; discriminate Hu). apply A. exact Hu.
          -- intros j' Hj' Hp'. destruct (Nat.eq_dec o j') as [<-|N]; [rewrite nth_set_here by lia; exact Gz|]. rewrite nth_set_other by exact N. apply O; [exact Hj'|]. assert (turn n (backwards e v) j' <> j) by (intros X; apply N; unfold o; rewrite <- X; apply turn_turn; exact Hj'). lia.
          -- destruct D as [W [LW D]]. exists W. split; [lia|exact D].
    - (* Store *) cbn [act fst snd]. split; [exact CI|]. split; [apply change_refl|]. destruct D as [W [LW [DW GW]]]. constructor; fold body; cbn [pc locals into].
      + lia.
      + intros j Hj _. apply I; lia.
      + intros Hp'. lia.
      + intros j Hj _. apply O; [exact Hj|]. pose proof (turn_lt n (backwards e v) j Hj). lia.
      + exists (W ++ [nth (length W) (tmpData2 c) 0]). rewrite app_length. cbn [length]. split; [lia|]. split.
        * rewrite DW, <- LW. apply overwrite_more. lia.
        * intros j Hj. destruct (Nat.eq_dec j (length W)) as [->|N]; [rewrite app_nth2, Nat.sub_diag by lia; apply O; [lia|]|rewrite app_nth1 by lia; apply GW; lia].
          pose proof (turn_lt n (backwards e v) (length W) ltac:(lia)). lia.
  Qed.
  Lemma words_step k e m c t : List.In k calls -> on k = ci -> what k = Words e -> CInv c -> WInv k e t -> nth_error (program c (what k)) (pc t) = Some m ->
    fst (act k m c t) = c /\ WInv k e (snd (act k m c t)).
  Proof.
    intros Hk Ho Hw CI WI Hm. pose proof (Fit k Hk Ho) as F. unfold fit in F. rewrite Hw in F. destruct F as [Hsrc Hdst]. pose proof (shape_ok e v) as Sh. fold n in Sh. set (body := body_of e v) in *. pose proof (sh_len _ _ _ Sh) as HL.
    pose proof CI as [Ev [Es [Ek [Et [L1 L2]]]]]. destruct WI as [P A Ln O R]. fold body in P, A, O, R. rewrite Hw in Hm. cbn [program] in Hm. rewrite Ev in Hm. fold body in Hm. rewrite nth_error_map in Hm. destruct (nth_error body (pc t)) as [s|] eqn:Hn; [|discriminate]. injection Hm as <-.
    assert (Hq : (pc t < length body)%nat) by (apply nth_error_Some; congruence). pose proof (body_mid e (pc t) s (src k) k c t true CI Hn A) as See. fold body in See. cbn [act]. set (z := value (sees true k c t) s).
    destruct (sh_at _ _ _ Sh _ _ Hn) as [[Hq1 ->]|[[Hq1 [Ls Vs]]|[j [ex [Hj [Hq1 [-> Vs]]]]]]].
    - cbn [lhs fst snd]. split; [reflexivity|]. constructor; fold body; cbn [pc locals into]; auto.
      + intros u Hu. rewrite (exec_S body _ _ _ Hn), exec1_value. cbn [lhs]. unfold upd. destruct (var_eqb u (B (pc t))) eqn:Eu; [|apply A; exact Hu]. unfold z. cbn [value eval sees]. rewrite (exec_keeps _ _ _ Sh) by (reflexivity || lia). reflexivity.
      + intros j Hj Hj'. lia.
    - assert (X : match lhs s with Out i => (c, {| pc := S (pc t); locals := locals t; into := set_nth i z (into t) |}) | u => (c, {| pc := S (pc t); locals := upd (locals t) u z; into := into t |}) end = (c, {| pc := S (pc t); locals := upd (locals t) (lhs s) z; into := into t |})) by (destruct (lhs s); try reflexivity; discriminate Ls).
      cbn zeta. rewrite X. clear X. cbn [fst snd]. split; [reflexivity|]. constructor; fold body; cbn [pc locals into]; auto.
      + intros u Hu. rewrite (exec_S body _ _ _ Hn), exec1_value. unfold upd. destruct (var_eqb u (lhs s)); [|apply A; exact Hu]. unfold z. apply value_agree; [left; apply local_nonmem; exact Ls|exact Vs|exact See].
      + intros j Hj Hj'. lia.
    - cbn [lhs fst snd]. set (o := turn n (backwards e v) j) in *. assert (Ho' : (o < n)%nat) by (apply turn_lt; exact Hj). split; [reflexivity|]. constructor; fold body; cbn [pc locals into].
      + lia.
      + intros u Hu. rewrite (exec_S body _ _ _ Hn), exec1_value. cbn [lhs]. rewrite upd_other by (intros ->; discriminate Hu). apply A. exact Hu.
      + rewrite set_nth_length. exact Ln.
      + intros j' Hj' Hp'. destruct (Nat.eq_dec o j') as [<-|N].
        * rewrite nth_set_here by lia. rewrite nth_run_body by exact Ho'. rewrite Hq1 in Hn. unfold o. rewrite (exec_out _ _ _ Sh _ j ex Hj Hn). rewrite <- Hq1. unfold z. cbn [value]. apply (eval_vars_ok nonmem); [exact Vs|exact See].
        * rewrite nth_set_other by exact N. apply O; [exact Hj'|]. assert (turn n (backwards e v) j' <> j) by (intros X; apply N; unfold o; rewrite <- X; apply turn_turn; exact Hj'). lia.
      + intros j' Hj'. rewrite nth_set_other by lia. apply R. exact Hj'.
  Qed.
  Definition AInv (s : (nat -> cipher) * (nat -> thread)) : Prop :=
    CInv (fst s ci) /\ forall i k, nth_error calls i = Some k -> on k = ci -> TInv k (fst s ci) (snd s i).
  Lemma all_step s s' : AInv s -> xstep calls s s' -> AInv s' /\ change (fst s ci) (fst s' ci).
  Proof.
    intros [CI TI] St. inversion St as [C T0 i k m Hk Hm]; subst. cbn [fst snd] in *. destruct (Nat.eq_dec (on k) ci) as [E|N].
    - pose proof (TI i k Hk E) as TIk. rewrite E in *. pose proof (nth_error_In _ _ Hk) as Ik.
      assert (G : CInv (fst (act k m (C ci) (T0 i))) /\ change (C ci) (fst (act k m (C ci) (T0 i))) /\ TInv k (fst (act k m (C ci) (T0 i))) (snd (act k m (C ci) (T0 i)))).
      { unfold TInv in *. destruct (what k) as [e|e|key|a b] eqn:Hw; try contradiction.
        - rewrite <- Hw in Hm. apply bytes_step; auto.
        - rewrite <- Hw in Hm. destruct (words_step k e m (C ci) (T0 i) Ik E Hw CI TIk Hm) as [-> W]. split; [exact CI|]. split; [apply change_refl|exact W]. }
      destruct G as [G1 [G2 G3]]. split; [|cbn [fst]; unfold put; rewrite Nat.eqb_refl; exact G2]. split; cbn [fst snd]; unfold put; rewrite Nat.eqb_refl; [exact G1|]. intros i' k' Hk' E'. destruct (Nat.eqb_spec i' i) as [->|Ni]; [rewrite Hk' in Hk; injection Hk as ->; exact G3|]. eapply tinv_change; [exact G2|]. apply TI; assumption.
    - assert (X : forall c', put C (on k) c' ci = C ci) by (intros c'; unfold put; destruct (Nat.eqb_spec ci (on k)); [congruence|reflexivity]). split; [|cbn [fst]; rewrite X; apply change_refl]. split; cbn [fst snd]; rewrite X; [exact CI|].
      intros i' k' Hk' E'. unfold put. destruct (Nat.eqb_spec i' i) as [->|Ni]; [rewrite Hk' in Hk; injection Hk as ->; contradiction|]. apply TI; assumption.
  Qed.
  Lemma all_start C : CInv (C ci) -> AInv (C, started calls).
  Proof.
    intros CI. split; [exact CI|]. cbn [fst snd]. intros i k Hk E. pose proof (Fit k (nth_error_In _ _ Hk) E) as F. unfold TInv, fit in *. pose proof (shape_ok true v) as St. pose proof (shape_ok false v) as Sf. fold n in St, Sf. apply sh_len in St, Sf.
    assert (HL : forall e, (2 * n <= length (body_of e v))%nat) by (intros e; destruct e; assumption). clear St Sf. destruct (what k) as [e|e|key|a b]; try contradiction; specialize (HL e); constructor; unfold started; rewrite ?Hk; cbn [pc locals into]; try lia; auto.
    - intros _. exists (repeat 0 n). split; [apply repeat_length|]. split; [intros; lia|]. intros u Hu. cbn [Nat.sub firstn]. destruct u; try reflexivity; discriminate Hu.
    - exists []. split; [cbn; lia|]. split; [|cbn; intros; lia]. unfold overwrite. reflexivity.
    - intros u Hu. destruct u; try reflexivity; discriminate Hu.
  Qed.
  Lemma change_trans a b c : change a b -> change b c -> change a c.
  Proof.
    intros [A1 A2] [B1 B2]. split; intros j Hj.
    - destruct (B1 j Hj) as [E|G]; [rewrite E; apply A1; exact Hj|right; exact G].
    - destruct (B2 j Hj) as [E|G]; [rewrite E; apply A2; exact Hj|right; exact G].
  Qed.
  Lemma all_steps m C s : CInv (C ci) -> xsteps calls m (C, started calls) s -> AInv s /\ change (C ci) (fst s ci).
  Proof.
    intros CI H. remember (C, started calls) as s0 eqn:E. induction H as [s0|m s0 s1 s2 H IH St]; subst; [split; [apply all_start; exact CI|apply change_refl]|].
    specialize (IH eq_refl). destruct IH as [A1 A2]. destruct (all_step _ _ A1 St) as [B1 B2]. split; [exact B1|eapply change_trans; eassumption].
  Qed.
End One.

(** ** One call running on its own. *)
Definition acts (k : call) (ms : list cmd) (s : cipher * thread) : cipher * thread := fold_left (fun (s : cipher * thread) m => act k m (fst s) (snd s)) ms s.
Definition reach (calls : list call) s s' := exists m, xsteps calls m s s'.
Lemma reach_trans calls a b c : reach calls a b -> reach calls b c -> reach calls a c.
Proof. intros H [m H2]. induction H2 as [s|m s s1 s2 _ IH St]; [exact H|]. destruct (IH H) as [m' H']. exists (S m'). eapply xs_more; eassumption. Qed.
Lemma act_program k m c t k' : program (fst (act k m c t)) k' = program c k'.
Proof. destruct m as [i|p st|i|i w|i w]; try reflexivity. cbn [act]. destruct (lhs st); try reflexivity. destruct p; reflexivity. Qed.
Lemma act_pc k m c t : pc (snd (act k m c t)) = S (pc t).
Proof. destruct m as [i|p st|i|i w|i w]; try reflexivity. cbn [act]. destruct (lhs st); try reflexivity. destruct p; reflexivity. Qed.
Lemma skipn_cons_nth {A} (l : list A) q x r : skipn q l = x :: r -> nth_error l q = Some x /\ skipn (S q) l = r.
Proof. revert q. induction l as [|y l IH]; intros [|q] H; cbn in *; try discriminate; [injection H as -> ->; auto|]. apply IH. exact H. Qed.
Lemma solo calls i k ms : nth_error calls i = Some k -> forall rest C T, skipn (pc (T i)) (program (C (on k)) (what k)) = ms ++ rest ->
  exists C' T', reach calls (C, T) (C', T') /\ (C' (on k), T' i) = acts k ms (C (on k), T i) /\ (forall j, j <> on k -> C' j = C j) /\ (forall j, j <> i -> T' j = T j) /\
    skipn (pc (T' i)) (program (C' (on k)) (what k)) = rest.
Proof.
  intros Hk. induction ms as [|m ms IH]; intros rest C T0 H.
  - exists C, T0. split; [exists 0%nat; constructor|]. auto.
  - cbn [app] in H. destruct (skipn_cons_nth _ _ _ _ H) as [H1 H2]. pose proof (x_step calls C T0 i k m Hk H1) as St. set (C1 := put C (on k) (fst (act k m (C (on k)) (T0 i)))) in *. set (T1 := put T0 i (snd (act k m (C (on k)) (T0 i)))) in *.
    assert (E1 : C1 (on k) = fst (act k m (C (on k)) (T0 i))) by (unfold C1, put; rewrite Nat.eqb_refl; reflexivity). assert (E2 : T1 i = snd (act k m (C (on k)) (T0 i))) by (unfold T1, put; rewrite Nat.eqb_refl; reflexivity).
    destruct (IH rest C1 T1) as [C' [T' [R [E [F1 [F2 F3]]]]]]; [rewrite E1, E2, act_program, act_pc; exact H2|]. exists C', T'. split; [eapply reach_trans; [|exact R]; exists 1%nat; eapply xs_more; [constructor|exact St]|].
    split; [rewrite E, E1, E2; unfold acts; cbn [fold_left fst snd]; destruct (act k m (C (on k)) (T0 i)); reflexivity|]. split; [|split; [|exact F3]].
    + intros j Nj. rewrite (F1 j Nj). unfold C1, put. destruct (Nat.eqb_spec j (on k)); [contradiction|reflexivity].
    + intros j Nj. rewrite (F2 j Nj). unfold T1, put. destruct (Nat.eqb_spec j i); [contradiction|reflexivity].
Qed.
(** What the three parts do. *)
Lemma acts_loads k m : forall a c t, exists l, acts k (map Load (seq a m)) (c, t) = (set_tmp1 c l, {| pc := m + pc t; locals := locals t; into := into t |}) /\
  length l = length (tmpData1 c) /\ forall j, (j < length l)%nat -> nth j l 0 = if ((a <=? j) && (j <? a + m))%nat%bool then uint64le (skipn (j * 8) (src k)) else nth j (tmpData1 c) 0.
Proof.
  induction m as [|m IH]; intros a c t.
  - exists (tmpData1 c). split; [destruct c, t; reflexivity|]. split; [reflexivity|]. intros j Hj. destruct (Nat.leb_spec a j), (Nat.ltb_spec j (a + 0)); cbn; try reflexivity. lia.
  - cbn [seq map]. unfold acts. cbn [fold_left fst snd act]. fold (acts k (map Load (seq (S a) m))).
    destruct (IH (S a) (set_tmp1 c (set_nth a (uint64le (skipn (a * 8) (src k))) (tmpData1 c))) {| pc := S (pc t); locals := locals t; into := into t |}) as [l [E [Ll N]]]. exists l. cbn [pc locals into tmpData1 set_tmp1] in *. rewrite set_nth_length in Ll.
    split; [unfold acts in E; rewrite E; f_equal; f_equal; lia|]. split; [exact Ll|]. intros j Hj. rewrite (N j Hj). rewrite nth_set_nth.
    destruct (Nat.leb_spec (S a) j), (Nat.leb_spec a j), (Nat.ltb_spec j (S a + m)), (Nat.ltb_spec j (a + S m)), (Nat.eqb_spec j a), (Nat.ltb_spec a (length (tmpData1 c))); cbn; try lia; try reflexivity. subst. reflexivity.
Qed.
Lemma acts_body (private : bool) k n rv body c t : shape n rv body = true -> (n <= length (if private then into t else tmpData2 c))%nat -> forall q, (q <= length body)%nat ->
  let s := acts k (map (Body private) (firstn q body)) (c, t) in
  (forall u, sees private k (fst s) (snd s) u = exec (firstn q body) (sees private k c t) u) /\ pc (snd s) = (q + pc t)%nat /\
  (if private then fst s = c /\ length (into (snd s)) = length (into t) /\ (forall j, (n <= j)%nat -> nth j (into (snd s)) 0 = nth j (into t) 0)
   else into (snd s) = into t /\ exists l, fst s = set_tmp2 c l /\ length l = length (tmpData2 c)).
Proof.
  intros Sh Ln. induction q as [|q IH]; intros Hq s.
  - subst s. cbn [firstn map acts fold_left fst snd]. split; [reflexivity|]. split; [reflexivity|]. destruct private; [auto|]. split; [reflexivity|]. exists (tmpData2 c). split; [destruct c; reflexivity|reflexivity].
  - destruct (IH ltac:(lia)) as [See [Hp R]]. clear IH. destruct (nth_error body q) as [st|] eqn:E; [|apply nth_error_None in E; lia].
    assert (F : firstn (S q) body = firstn q body ++ [st]).
    { clear - E. revert q E. induction body as [|x b IH]; intros [|q] E; cbn in *; try discriminate; [injection E as ->; reflexivity|]. rewrite (IH q E). reflexivity. }
    assert (Es : s = act k (Body private st) (fst (acts k (map (Body private) (firstn q body)) (c, t))) (snd (acts k (map (Body private) (firstn q body)) (c, t)))).
    { subst s. rewrite F, map_app. unfold acts. rewrite fold_left_app. reflexivity. }
    set (s1 := acts k (map (Body private) (firstn q body)) (c, t)) in *. destruct s1 as [c1 t1]. cbn [fst snd] in *. clearbody s. rewrite (exec_S body q st _ E), exec1_value.
    assert (V : value (sees private k c1 t1) st = value (exec (firstn q body) (sees private k c t)) st).
    { destruct st as [v0 e|v0 e|v0 e]; cbn [value]; rewrite ?See; (rewrite (eval_vars_ok (fun _ => true) e _ (exec (firstn q body) (sees private k c t))); [reflexivity| |intros u _; apply See]); clear; induction e; cbn; rewrite ?andb_true_iff; auto. }
    cbn [act] in Es. rewrite V in Es. set (z := value (exec (firstn q body) (sees private k c t)) st) in *. clearbody z.
    destruct (sh_at _ _ _ Sh _ _ E) as [H|H].
    + destruct H as [_ ->]. cbn [lhs] in *. subst s. cbn [fst snd pc into]. split; [|split; [lia|destruct private; exact R]].
      intros u. destruct u; cbn [sees locals into]; unfold upd; cbn [var_eqb]; try (rewrite <- See; reflexivity); (destruct (Nat.eqb_spec i q); [reflexivity|rewrite <- See; reflexivity]).
    + assert (D : local (lhs st) = true \/ exists j, (j < n)%nat /\ lhs st = Out j) by (destruct H as [[_ [H _]]|[j [e [Hj [_ [-> _]]]]]]; [left; exact H|right; exists (turn n rv j); split; [apply turn_lt; exact Hj|reflexivity]]). clear H. destruct D as [D|[j [Hj D]]].
      * assert (X : s = (c1, {| pc := S (pc t1); locals := upd (locals t1) (lhs st) z; into := into t1 |})) by (rewrite Es; destruct (lhs st); try discriminate D; reflexivity). rewrite X. clear X Es s. cbn [fst snd pc into].
        split; [|split; [lia|destruct private; exact R]]. intros u. unfold upd. destruct (var_eqb u (lhs st)) eqn:Eu.
        -- apply var_eqb_eq in Eu. subst u. destruct (lhs st) eqn:El; try discriminate D; cbn [sees locals]; apply upd_same.
        -- rewrite <- See. destruct u; cbn [sees locals into]; try reflexivity; unfold upd; rewrite Eu; reflexivity.
      * rewrite D in *. destruct private.
        -- subst s. cbn [fst snd pc into]. destruct R as [R1 [R2 R3]]. split; [|split; [lia|split; [exact R1|split; [rewrite set_nth_length; exact R2|intros j' Hj'; rewrite nth_set_nth; destruct (Nat.eqb_spec j' j); [lia|apply R3; exact Hj']]]]].
           intros u. unfold upd. destruct (var_eqb u (Out j)) eqn:Eu; [apply var_eqb_eq in Eu; subst u; cbn [sees into]; rewrite nth_set_nth, Nat.eqb_refl; destruct (Nat.ltb_spec j (length (into t1))); [reflexivity|lia]|].
           rewrite <- See. destruct u; cbn [sees locals into]; try reflexivity. rewrite nth_set_nth. cbn in Eu. rewrite Eu. reflexivity.
        -- subst s. cbn [fst snd pc into]. destruct R as [R1 [l [R2 R3]]]. split; [|split; [lia|split; [exact R1|]]].
           ++ assert (L1 : length (tmpData2 c1) = length (tmpData2 c)) by (rewrite R2; exact R3). intros u. unfold upd. destruct (var_eqb u (Out j)) eqn:Eu; [apply var_eqb_eq in Eu; subst u; cbn [sees into set_tmp2 tmpData2]; rewrite nth_set_nth, Nat.eqb_refl; destruct (Nat.ltb_spec j (length (tmpData2 c1))); [reflexivity|lia]|].
              rewrite <- See. destruct u; cbn [sees locals into set_tmp2 tmpData1 tmpData2 expandedKey expandedTweak]; try reflexivity. rewrite nth_set_nth. cbn in Eu. rewrite Eu. reflexivity.
           ++ exists (set_nth j z (tmpData2 c1)). split; [rewrite R2; reflexivity|]. rewrite set_nth_length, R2. exact R3.
Qed.
Lemma sees_alike (private : bool) k c t v e input : (forall i, (i < qwords v)%nat -> nth i (if private then src k else tmpData1 c) 0 = nth i input 0) -> (forall u, local u = true -> locals t u = 0) ->
  forall j, (j < qwords v)%nat -> exec (body_of e v) (sees private k c t) (Out j) = nth j (run_body (qwords v) (body_of e v) input (expandedKey c) (expandedTweak c)) 0.
Proof.
  intros Hi Hz j Hj. rewrite nth_run_body by exact Hj. apply (out_alike (qwords v) (backwards e v)); [apply shape_ok|exact Hj|]. intros u Hu. destruct u; cbn [sees call_env]; try reflexivity; try contradiction; try (apply Hz; reflexivity). apply Hi. exact Hu.
Qed.
Lemma acts_body_bytes k e v c t : length (tmpData2 c) = qwords v -> (forall u, local u = true -> locals t u = 0) ->
  exists lc, acts k (map (Body false) (body_of e v)) (c, t) = (set_tmp2 c (run_body (qwords v) (body_of e v) (tmpData1 c) (expandedKey c) (expandedTweak c)), {| pc := length (body_of e v) + pc t; locals := lc; into := into t |}).
Proof.
  intros L2 Hz. pose proof (acts_body false k (qwords v) (backwards e v) (body_of e v) c t (shape_ok e v) ltac:(lia) (length (body_of e v)) (le_n _)) as H. rewrite firstn_all in H. cbv zeta in H. destruct (acts k (map (Body false) (body_of e v)) (c, t)) as [c' t']. cbn [fst snd] in H.
  destruct H as [See [Hp [Hi [l [-> Ll]]]]]. exists (locals t'). f_equal; [|destruct t'; cbn in *; subst; reflexivity]. f_equal. apply (nth_ext _ _ 0 0); [rewrite run_body_length; lia|]. intros j Hj. rewrite Ll, L2 in Hj.
  specialize (See (Out j)). cbn [sees set_tmp2 tmpData2] in See. rewrite See. apply (sees_alike false); auto.
Qed.
Lemma nth_overwrite0 d w j : (length w <= length d)%nat -> nth j (overwrite d 0 w) 0 = if (j <? length w)%nat then nth j w 0 else nth j d 0.
Proof.
  intros Hl. unfold overwrite. cbn [firstn app]. rewrite Nat.add_0_l. destruct (Nat.ltb_spec j (length w)); [apply app_nth1; assumption|]. rewrite app_nth2 by assumption. rewrite nth_skipn'. f_equal. lia.
Qed.
Lemma overwrite0_length d w : (length w <= length d)%nat -> length (overwrite d 0 w) = length d.
Proof. intros Hl. unfold overwrite. cbn [firstn app]. rewrite app_length, skipn_length. lia. Qed.
Lemma acts_body_words k e v c t : (qwords v <= length (src k))%nat -> (qwords v <= length (into t))%nat -> (forall u, local u = true -> locals t u = 0) ->
  exists lc, acts k (map (Body true) (body_of e v)) (c, t) =
    (c, {| pc := length (body_of e v) + pc t; locals := lc; into := overwrite (into t) 0 (run_body (qwords v) (body_of e v) (firstn (qwords v) (src k)) (expandedKey c) (expandedTweak c)) |}).
Proof.
  intros Ls Li Hz. pose proof (acts_body true k (qwords v) (backwards e v) (body_of e v) c t (shape_ok e v) Li (length (body_of e v)) (le_n _)) as H. rewrite firstn_all in H. cbv zeta in H. destruct (acts k (map (Body true) (body_of e v)) (c, t)) as [c' t']. cbn [fst snd] in H.
  destruct H as [See [Hp [-> [Hl Hr]]]]. exists (locals t'). f_equal. destruct t' as [p' l' i']. cbn [pc locals into] in *. subst p'. f_equal. apply (nth_ext _ _ 0 0); [rewrite overwrite0_length; [exact Hl|rewrite run_body_length; exact Li]|]. intros j Hj.
  rewrite nth_overwrite0 by (rewrite run_body_length; exact Li). rewrite run_body_length. destruct (Nat.ltb_spec j (qwords v)) as [H|H]; [|apply Hr; exact H]. specialize (See (Out j)). cbn [sees into] in See. rewrite See. apply (sees_alike true); auto. intros i Hi. rewrite nth_firstn_lt by exact Hi. reflexivity.
Qed.
Lemma firstn_S_nth (l : list Z) m : (m < length l)%nat -> firstn (S m) l = firstn m l ++ [nth m l 0].
Proof. revert m. induction l as [|x l IH]; intros [|m] H; cbn in *; try lia; [reflexivity|]. rewrite IH by lia. reflexivity. Qed.
Lemma acts_stores k c t m : (m <= length (tmpData2 c))%nat -> (8 * m <= length (into t))%nat ->
  acts k (map Store (seq 0 m)) (c, t) = (c, {| pc := m + pc t; locals := locals t; into := overwrite (into t) 0 (bytes_of_words (firstn m (tmpData2 c))) |}).
Proof.
  induction m as [|m IH]; intros H1 H2; [destruct t; reflexivity|]. rewrite seq_S, map_app. unfold acts in *. rewrite fold_left_app, IH by lia. cbn [map fold_left act fst snd pc locals into Nat.add]. f_equal. f_equal. rewrite firstn_S_nth by lia.
  assert (E : (m * 8 = length (firstn m (tmpData2 c)) * 8)%nat) by (rewrite firstn_length; lia). rewrite E. apply overwrite_more. rewrite firstn_length. lia.
Qed.
