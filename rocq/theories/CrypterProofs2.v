(** * Memory-level proofs: loads, stores and bodies run on overlapping windows. *)
From Coq Require Import ZArith List Bool Lia.
From Verif Require Import TfLang TfSpec TfAlgebra TfSym TfProofs TfConform CrypterModel CrypterSpec CrypterProofs.
Import ListNotations.
Open Scope Z_scope.

Lemma skipn_set_nth k : forall l i j, (i < j)%nat -> skipn j (set_nth i k l) = skipn j l.
Proof.
  induction l as [|x l IH]; intros [|i] [|j] H; try lia; try reflexivity.
  cbn. apply IH. lia.
Qed.

Lemma load_words_spec n : forall i mem src tmp, (i + n <= length tmp)%nat ->
  load_words n i mem src tmp
  = if (Nat.eqb n 0 || (8 * (i + n) <=? cap src)%nat)%bool
    then Some (firstn i tmp ++ map (fun j => uint64le (skipn (off src + j * 8) mem)) (seq i n) ++ skipn (i + n) tmp)
    else None.
Proof.
  induction n as [|n IH]; intros i mem src tmp L; cbn [load_words].
  - cbn [Nat.eqb orb seq map app]. rewrite Nat.add_0_r, firstn_skipn. reflexivity.
  - destruct (Nat.leb_spec (i * 8 + 8) (cap src)) as [C|C].
    + rewrite IH by (rewrite set_nth_length; lia).
      replace (S i + n)%nat with (i + S n)%nat by lia. cbn [Nat.eqb orb].
      rewrite firstn_S_set_nth by lia. rewrite skipn_set_nth by lia.
      cbn [seq map]. rewrite <- app_assoc. cbn [app].
      clear IH; destruct (Nat.eqb n 0) eqn:Hn; cbn [orb]; [|reflexivity]; apply Nat.eqb_eq in Hn; subst n.
      destruct (Nat.leb_spec (8 * (i + 1)) (cap src)); [reflexivity|lia].
    + cbn [Nat.eqb orb]. destruct (Nat.leb_spec (8 * (i + S n)) (cap src)); [lia|reflexivity].
Qed.

Lemma skipn_skipn' {A} a b (l : list A) : skipn a (skipn b l) = skipn (b + a) l.
Proof. apply skipn_skipn. Qed.

Lemma words_region_at n : forall o mem, (o + 8 * n <= length mem)%nat ->
  forall i, map (fun j => uint64le (skipn (o + (j - i) * 8) mem)) (seq i n)
            = words_of_bytes n (region mem o (8 * n)).
Proof.
  unfold region. induction n as [|n IH]; intros o mem L i; [reflexivity|].
  cbn [seq map words_of_bytes]. f_equal.
  - rewrite Nat.sub_diag. cbn [Nat.mul]. rewrite Nat.add_0_r.
    rewrite uint64le_spec by (rewrite skipn_length; lia). f_equal.
    rewrite firstn_firstn. f_equal. lia.
  - specialize (IH (o + 8)%nat mem ltac:(lia) (S i)).
    replace (skipn 8 (firstn (8 * S n) (skipn o mem))) with (firstn (8 * n) (skipn (o + 8) mem)).
    + rewrite <- IH. apply map_ext_in. intros j Hj. apply in_seq in Hj. do 2 f_equal. lia.
    + rewrite <- skipn_skipn'. replace (8 * S n)%nat with (8 + 8 * n)%nat by lia.
      rewrite skipn_firstn_comm. replace (8 + 8 * n - 8)%nat with (8 * n)%nat by lia. reflexivity.
Qed.
Lemma words_region n o mem : (o + 8 * n <= length mem)%nat ->
  map (fun j => uint64le (skipn (o + j * 8) mem)) (seq 0 n) = words_of_bytes n (region mem o (8 * n)).
Proof.
  intros L. rewrite <- (words_region_at n o mem L 0). apply map_ext. intros j. do 3 f_equal. lia.
Qed.

Lemma blit_nil mem a : blit mem a [] = mem.
Proof. unfold blit. cbn. rewrite Nat.add_0_r. apply firstn_skipn. Qed.
Lemma blit_blit mem a x y : (a + length x + length y <= length mem)%nat ->
  blit (blit mem a x) (a + length x) y = blit mem a (x ++ y).
Proof.
  intros L. unfold blit.
  assert (La : length (firstn a mem) = a) by (rewrite firstn_length; lia).
  rewrite !app_length. rewrite firstn_app, La.
  rewrite firstn_all2 by lia. replace (a + length x - a)%nat with (length x) by lia.
  rewrite firstn_app, Nat.sub_diag, firstn_all. cbn [firstn]. rewrite app_nil_r.
  rewrite skipn_app, La. rewrite skipn_all2 by lia. cbn [app].
  replace (a + length x + length y - a)%nat with (length x + length y)%nat by lia.
  rewrite skipn_app. rewrite skipn_all2 by lia. cbn [app].
  replace (length x + length y - length x)%nat with (length y) by lia.
  rewrite skipn_skipn', <- !app_assoc. do 4 f_equal. lia.
Qed.
Lemma blit_length mem a x : (a + length x <= length mem)%nat -> length (blit mem a x) = length mem.
Proof. intros L. unfold blit. rewrite !app_length, firstn_length, skipn_length. lia. Qed.

Lemma store_words_spec n : forall i mem dst tmp, (off dst + 8 * (i + n) <= length mem)%nat ->
  store_words n i mem dst tmp
  = if (Nat.eqb n 0 || (8 * (i + n) <=? cap dst)%nat)%bool
    then Some (blit mem (off dst + 8 * i) (bytes_of_words (map (fun j => nth j tmp 0) (seq i n))))
    else None.
Proof.
  induction n as [|n IH]; intros i mem dst tmp L; cbn [store_words].
  - cbn [Nat.eqb orb seq map bytes_of_words flat_map]. rewrite blit_nil. reflexivity.
  - destruct (Nat.leb_spec (i * 8 + 8) (cap dst)) as [C|C].
    + rewrite put_uint64le_spec.
      rewrite IH by (rewrite blit_length; rewrite ?bytes_of_word_length; lia).
      replace (S i + n)%nat with (i + S n)%nat by lia. cbn [Nat.eqb orb].
      assert (E : blit (blit mem (off dst + i * 8) (bytes_of_word (nth i tmp 0))) (off dst + 8 * S i)
                    (bytes_of_words (map (fun j => nth j tmp 0) (seq (S i) n)))
                  = blit mem (off dst + 8 * i) (bytes_of_words (map (fun j => nth j tmp 0) (seq i (S n))))).
      { replace (off dst + 8 * S i)%nat with (off dst + i * 8 + length (bytes_of_word (nth i tmp 0%Z)))%nat
          by (rewrite bytes_of_word_length; lia).
        rewrite blit_blit. { f_equal; lia. }
        rewrite bytes_of_words_length, map_length, seq_length, bytes_of_word_length. lia. }
      rewrite E.
      clear IH; destruct (Nat.eqb n 0) eqn:Hn; cbn [orb]; [|reflexivity]; apply Nat.eqb_eq in Hn; subst n.
      destruct (Nat.leb_spec (8 * (i + 1)) (cap dst)); [reflexivity|lia].
    + cbn [Nat.eqb orb]. destruct (Nat.leb_spec (8 * (i + S n)) (cap dst)); [lia|reflexivity].
Qed.

(** ** Bodies on overlapping windows *)
Definition nonmem (v : var) : bool := match v with In _ | Out _ => false | _ => true end.
Fixpoint vars_ok (f : var -> bool) (e : expr) : bool :=
  match e with
  | EV v => f v
  | EC _ => true
  | EAdd a b | EXor a b | EOr a b => vars_ok f a && vars_ok f b
  | EShl a _ | EShr a _ => vars_ok f a
  end.
Definition rhs (c : stmt) : expr := match c with Assign _ e | AddAssign _ e | SubAssign _ e => e end.
Definition rd1 (n : nat) (v : var) : bool :=
  match v with In i => (i <? n)%nat | Out _ => false | _ => true end.
Definition ph1 (n : nat) (c : stmt) : bool := nonmem (target c) && vars_ok (rd1 n) (rhs c).
Definition ph2 (n : nat) (c : stmt) : bool :=
  match c with
  | Assign (Out i) e => (i <? n)%nat && vars_ok nonmem e
  | _ => nonmem (target c) && vars_ok nonmem (rhs c)
  end.
Definition writes (p : list stmt) : list nat :=
  flat_map (fun c => match c with Assign (Out i) _ => [i] | _ => [] end) p.
(** All reads of the input precede all writes of the output, the output is never read, and every
    output word is written. *)
Definition alias_ok (n k : nat) (body : list stmt) : bool :=
  forallb (ph1 n) (firstn k body) && forallb (ph2 n) (skipn k body)
  && forallb (fun i => existsb (Nat.eqb i) (writes (skipn k body))) (seq 0 n).

Lemma eval_vars_ok f e r r' : vars_ok f e = true -> (forall v, f v = true -> r v = r' v) -> eval r e = eval r' e.
Proof.
  intros H Hr. induction e; cbn [vars_ok eval] in *; auto;
    try (apply andb_prop in H; destruct H as [H1 H2]; rewrite IHe1, IHe2; auto).
  - rewrite IHe; auto.
  - rewrite IHe; auto.
Qed.

Lemma var_eqb_neq u v : u <> v -> var_eqb u v = false.
Proof. intros H. destruct (var_eqb u v) eqn:E; [|reflexivity]. apply var_eqb_eq in E. contradiction. Qed.

Section Alias.
  Variables (n s d : nat) (mem0 : list Z).
  Definition R1 (r r0 : env) : Prop :=
    (forall v, nonmem v = true -> r v = r0 v)
    /\ (forall i, (i < n)%nat -> r0 (In i) = nth (s + i) mem0 0).

  Lemma mwrite_nonmem r m v z : nonmem v = true -> mwrite s d (r, m) v z = (upd r v z, m).
  Proof. destruct v; intros H; try discriminate; reflexivity. Qed.
  Lemma upd_agree r r0 v z : (forall u, nonmem u = true -> r u = r0 u) ->
    forall u, nonmem u = true -> upd r v z u = upd r0 v z u.
  Proof. intros H u Hu. unfold upd. destruct (var_eqb u v); auto. Qed.

  Lemma phase1 p : forall r r0, forallb (ph1 n) p = true -> R1 r r0 ->
    exists r', fold_left (mexec1 s d) p (r, mem0) = (r', mem0) /\ R1 r' (exec p r0).
  Proof.
    induction p as [|c p IH]; intros r r0 H HR; [exists r; split; [reflexivity | exact HR]|].
    cbn [forallb] in H. apply andb_prop in H. destruct H as [Hc Hp].
    unfold ph1 in Hc. apply andb_prop in Hc. destruct Hc as [Ht He].
    assert (Ev : eval (mview s d (r, mem0)) (rhs c) = eval r0 (rhs c)).
    { apply (eval_vars_ok _ _ _ _ He). intros v Hv. destruct HR as [HR1 HR2].
      destruct v; cbn [rd1 mview] in *; try (apply HR1; reflexivity); try discriminate.
      apply Nat.ltb_lt in Hv. cbn [snd]. symmetry. apply HR2, Hv. }
    assert (Et : mview s d (r, mem0) (target c) = r0 (target c)).
    { destruct (target c); try discriminate Ht; cbn [mview fst]; apply HR; reflexivity. }
    assert (Step : exists r1, mexec1 s d (r, mem0) c = (r1, mem0) /\ R1 r1 (exec1 r0 c)).
    { destruct c; cbn [target rhs] in *; cbn [mexec1 exec1]; rewrite ?Et, Ev;
        rewrite mwrite_nonmem by exact Ht; eexists; (split; [reflexivity|]);
        (split; [apply upd_agree, HR |
          intros i Hi; unfold upd; rewrite var_eqb_neq by (intros E; subst; discriminate Ht); apply HR, Hi]). }
    destruct Step as [r1 [E1 HR1]]. cbn [fold_left]. rewrite E1. unfold exec. cbn [fold_left].
    apply (IH r1 (exec1 r0 c) Hp HR1).
  Qed.

  Definition R2 (w : list nat) (r : env) (m : list Z) (r0 : env) : Prop :=
    (forall v, nonmem v = true -> r v = r0 v)
    /\ length m = length mem0
    /\ (forall j, nth j m 0 = if (d <=? j)%nat && existsb (Nat.eqb (j - d)) w then r0 (Out (j - d)) else nth j mem0 0).

  Lemma existsb_app_one j w i : existsb (Nat.eqb j) (w ++ [i]) = existsb (Nat.eqb j) w || Nat.eqb j i.
  Proof. rewrite existsb_app. cbn. rewrite orb_false_r. reflexivity. Qed.

  Lemma phase2 p : (d + n <= length mem0)%nat -> forall w r m r0, forallb (ph2 n) p = true -> R2 w r m r0 ->
    exists r' m', fold_left (mexec1 s d) p (r, m) = (r', m') /\ R2 (w ++ writes p) r' m' (exec p r0).
  Proof.
    intros Ld. induction p as [|c p IH]; intros w r m r0 H HR.
    { exists r, m. split; [reflexivity|]. cbn. rewrite app_nil_r. exact HR. }
    cbn [forallb] in H. apply andb_prop in H. destruct H as [Hc Hp].
    cbn [fold_left]. unfold exec. cbn [fold_left]. fold (exec p (exec1 r0 c)).
    destruct HR as [HR1 [HR2 HR3]].
    assert (Hmv : forall v, nonmem v = true -> mview s d (r, m) v = r0 v).
    { intros v Hv. destruct v; try discriminate; cbn [mview fst]; apply HR1; reflexivity. }
    assert (Gen : nonmem (target c) = true -> vars_ok nonmem (rhs c) = true ->
       exists r1, mexec1 s d (r, m) c = (r1, m) /\ R2 w r1 m (exec1 r0 c)).
    { intros Ht He.
      assert (Ev : eval (mview s d (r, m)) (rhs c) = eval r0 (rhs c))
        by (apply (eval_vars_ok _ _ _ _ He); exact Hmv).
      assert (Et : mview s d (r, m) (target c) = r0 (target c)) by (apply Hmv, Ht).
      assert (Out_same : forall z j, upd r0 (target c) z (Out j) = r0 (Out j)).
      { intros z j. unfold upd. rewrite var_eqb_neq; [reflexivity|]. intros E. rewrite <- E in Ht. discriminate. }
      destruct c; cbn [target rhs] in *; cbn [mexec1 exec1]; rewrite ?Et, Ev;
        rewrite mwrite_nonmem by exact Ht; eexists; (split; [reflexivity|]);
        (split; [apply upd_agree, HR1 | split; [exact HR2 |]]);
        intros j; rewrite Out_same; apply HR3. }
    destruct (match c with Assign (Out _) _ => true | _ => false end) eqn:Kind.
    - destruct c as [[| | | | |i| |] e| |]; try discriminate Kind. cbn [ph2] in Hc.
      apply andb_prop in Hc. destruct Hc as [Hi He]. apply Nat.ltb_lt in Hi.
      assert (Ev : eval (mview s d (r, m)) e = eval r0 e) by (apply (eval_vars_ok _ _ _ _ He); exact Hmv).
      cbn [mexec1 mwrite fst snd exec1]. rewrite Ev. set (z := eval r0 e).
      assert (HR' : R2 (w ++ [i]) r (set_nth (d + i) z m) (upd r0 (Out i) z)).
      { split; [|split].
        - intros v Hv. unfold upd. rewrite var_eqb_neq; [apply HR1, Hv|]. intros E; subst; discriminate.
        - rewrite set_nth_length. exact HR2.
        - intros j. rewrite nth_set_nth, HR2, HR3, existsb_app_one.
          destruct (Nat.ltb_spec (d + i) (length mem0)); [|lia]. rewrite andb_true_r.
          destruct (Nat.eqb_spec j (d + i)) as [->|Hj].
          + destruct (Nat.leb_spec d (d + i)); [|lia].
            replace (d + i - d)%nat with i by lia. rewrite Nat.eqb_refl, orb_true_r. cbn [andb].
            unfold upd. rewrite var_eqb_refl. reflexivity.
          + destruct (Nat.leb_spec d j); cbn [andb]; [|reflexivity].
            destruct (Nat.eqb_spec (j - d) i) as [E|E]; [lia|]. rewrite orb_false_r.
            unfold upd. rewrite var_eqb_neq by (intros E2; inversion E2; lia). reflexivity. }
      destruct (IH _ _ _ _ Hp HR') as [r' [m' [E1 E2]]]. exists r', m'. split; [exact E1|].
      rewrite <- app_assoc in E2. exact E2.
    - assert (Hc' : nonmem (target c) && vars_ok nonmem (rhs c) = true).
      { destruct c as [[]| |]; try discriminate Kind; exact Hc. }
      apply andb_prop in Hc'. destruct (Gen (proj1 Hc') (proj2 Hc')) as [r1 [E1 HR']]. rewrite E1.
      destruct (IH _ _ _ _ Hp HR') as [r' [m' [E2 E3]]]. exists r', m'. split; [exact E2|].
      replace (writes (c :: p)) with (writes p); [exact E3|].
      destruct c as [[]| |]; try discriminate Kind; reflexivity.
  Qed.
End Alias.

Lemma nth_firstn_lt {A} (l : list A) i n x : (i < n)%nat -> nth i (firstn n l) x = nth i l x.
Proof. revert l i. induction n as [|n IH]; intros [|y l] [|i] H; try lia; try reflexivity. cbn. apply IH. lia. Qed.
Lemma nth_skipn' {A} (l : list A) i n x : nth i (skipn n l) x = nth (n + i) l x.
Proof. revert l. induction n as [|n IH]; intros [|y l]; cbn; try reflexivity; [destruct i; reflexivity | apply IH]. Qed.

Lemma alias_sound n k body s d mem xk xt :
  alias_ok n k body = true -> (s + n <= length mem)%nat -> (d + n <= length mem)%nat ->
  snd (fold_left (mexec1 s d) body (call_env [] xk xt, mem))
  = overwrite mem d (run_body n body (region mem s n) xk xt).
Proof.
  unfold alias_ok. intros H Ls Ld. apply andb_prop in H. destruct H as [H H3].
  apply andb_prop in H. destruct H as [H1 H2].
  rewrite <- (firstn_skipn k body) at 1. rewrite fold_left_app.
  assert (I1 : R1 n s mem (call_env [] xk xt) (call_env (region mem s n) xk xt)).
  { split.
    - intros v Hv. destruct v; try discriminate; reflexivity.
    - intros i Hi. cbn [call_env]. unfold region. rewrite nth_firstn_lt by exact Hi. apply nth_skipn'. }
  destruct (phase1 n s d mem _ _ _ H1 I1) as [r1 [E1 HR1]]. rewrite E1.
  assert (I2 : R2 d mem [] r1 mem (exec (firstn k body) (call_env (region mem s n) xk xt))).
  { split; [apply HR1|]. split; [reflexivity|]. intros j. rewrite andb_false_r. reflexivity. }
  destruct (phase2 n s d mem _ Ld _ _ _ _ H2 I2) as [r2 [m2 [E2 [_ [HL HN]]]]].
  rewrite E2. cbn [snd]. cbn [app] in HN.
  unfold run_body. replace (exec body (call_env (region mem s n) xk xt)) with (exec (firstn k body ++ skipn k body) (call_env (region mem s n) xk xt)) by (rewrite firstn_skipn; reflexivity). rewrite exec_app.
  set (rf := exec (skipn k body) _) in *.
  assert (Lo : length (outputs n rf) = n) by (unfold outputs; rewrite map_length, seq_length; reflexivity).
  assert (LL : length (overwrite mem d (outputs n rf)) = length mem)
    by (unfold overwrite; rewrite !app_length, firstn_length, skipn_length; lia).
  apply (nth_ext _ _ 0 0); [lia|]. intros j Hj. rewrite HN.
  assert (Ld' : length (firstn d mem) = d) by (rewrite firstn_length; lia).
  unfold overwrite.
  destruct (Nat.leb_spec d j) as [Dj|Dj]; cbn [andb].
  - rewrite app_nth2 by lia. rewrite Ld'.
    destruct (Nat.lt_ge_cases (j - d) n) as [Jn|Jn].
    + rewrite app_nth1 by lia.
      assert (X : existsb (Nat.eqb (j - d)) (writes (skipn k body)) = true).
      { rewrite forallb_forall in H3. apply H3. apply in_seq. lia. }
      rewrite X. unfold outputs.
      rewrite (nth_indep _ 0 (rf (Out 0))) by (rewrite map_length, seq_length; lia).
      rewrite (map_nth (fun i => rf (Out i)) (seq 0 n) 0%nat). rewrite seq_nth by lia. reflexivity.
    + rewrite app_nth2 by lia. rewrite Lo, nth_skipn'.
      assert (X : existsb (Nat.eqb (j - d)) (writes (skipn k body)) = false).
      { apply not_true_iff_false. intros X. apply existsb_exists in X. destruct X as [i [Hi Ei]].
        apply Nat.eqb_eq in Ei. subst i. unfold writes in Hi. apply in_flat_map in Hi.
        destruct Hi as [c [Hc Hi]]. rewrite forallb_forall in H2. specialize (H2 c Hc).
        destruct c as [[| | | | |i| |] e| |]; cbn in Hi; try contradiction.
        destruct Hi as [Ej|[]]. cbn [ph2] in H2. apply andb_prop in H2. destruct H2 as [H2 _].
        apply Nat.ltb_lt in H2. lia. }
      rewrite X. f_equal. lia.
  - rewrite app_nth1 by lia. rewrite nth_firstn_lt by lia. reflexivity.
Qed.
