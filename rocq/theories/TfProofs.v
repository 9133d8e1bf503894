(** * The unrolled bodies compute the specification (proofs). *)
From Coq Require Import ZArith List Bool Lia.
From Verif Require Import TfLang TfSpec TfSym.
Import ListNotations.
Open Scope Z_scope.

Definition state (n : nat) (r : env) := map (fun i => r (B i)) (seq 0 n).
Definition keys (n : nat) (r : env) := map (fun i => r (K i)) (seq 0 (n + 1)).
Definition tweaks (r : env) := map (fun i => r (T i)) (seq 0 3).

Definition Bs (n : nat) : list sexpr := map (fun i => SV (B i)) (seq 0 n).
Definition Ks (n : nat) : list sexpr := map (fun i => SV (K i)) (seq 0 (n + 1)).
Definition Ts : list sexpr := map (fun i => SV (T i)) (seq 0 3).

Lemma den_Bs r n : map (den r) (Bs n) = state n r.
Proof. unfold Bs, state. rewrite map_map. reflexivity. Qed.
Lemma den_Ks r n : map (den r) (Ks n) = keys n r.
Proof. unfold Ks, keys. rewrite map_map. reflexivity. Qed.
Lemma den_Ts r : map (den r) Ts = tweaks r.
Proof. unfold Ts, tweaks. rewrite map_map. reflexivity. Qed.

Lemma hom_enc r p k t ds v :
  map (den r) (fold_left (round sym p k t) ds v)
  = fold_left (round word64 p (map (den r) k) (map (den r) t)) ds (map (den r) v).
Proof. apply (hom_fold_round sym word64 (den r)); intros; first [apply sadd_den | apply ssub_den | reflexivity]. Qed.
Lemma hom_dec r p k t ds v :
  map (den r) (fold_left (unround sym p k t) ds v)
  = fold_left (unround word64 p (map (den r) k) (map (den r) t)) ds (map (den r) v).
Proof. apply (hom_fold_unround sym word64 (den r)); intros; first [apply sadd_den | apply ssub_den | reflexivity]. Qed.
Lemma hom_addk r p k t s v :
  map (den r) (map2 sym sadd v (subkey sym p k t s))
  = map2 word64 (w_add word64) (map (den r) v) (subkey word64 p (map (den r) k) (map (den r) t) s).
Proof.
  rewrite (hom_map2 sym word64 (den r) sadd (w_add word64)) by (intros; apply sadd_den).
  f_equal. apply (hom_subkey sym word64 (den r)); intros; first [apply sadd_den | apply ssub_den | reflexivity].
Qed.
Lemma hom_subk r p k t s v :
  map (den r) (map2 sym ssub v (subkey sym p k t s))
  = map2 word64 (w_sub word64) (map (den r) v) (subkey word64 p (map (den r) k) (map (den r) t) s).
Proof.
  rewrite (hom_map2 sym word64 (den r) ssub (w_sub word64)) by (intros; apply ssub_den).
  f_equal. apply (hom_subkey sym word64 (den r)); intros; first [apply sadd_den | apply ssub_den | reflexivity].
Qed.

Definition slice (a n : nat) (l : list stmt) := firstn n (skipn a l).

(** The preamble loads input, expandedKey and expandedTweak into the locals. *)
Definition pre_ok (n : nat) (pre : list stmt) : bool :=
  match sexec pre sinit with
  | Some s => forallb (fun i => seqb (s (B i)) (SV (In i))) (seq 0 n)
              && forallb (fun i => seqb (s (K i)) (SV (XK i))) (seq 0 (n + 1))
              && forallb (fun i => seqb (s (T i)) (SV (XT i))) (seq 0 3)
  | None => false
  end.
Definition out_ok (n : nat) (out : list stmt) (expected : list sexpr) : bool :=
  match sexec out sinit with
  | Some s => forallb (fun i => seqb (s (Out i)) (nth i expected bad)) (seq 0 n)
              && Nat.eqb (length expected) n
  | None => false
  end.

Lemma sexec_init_sound r p s v : sexec p sinit = Some s -> exec p r v = den r (s v).
Proof. intros E. rewrite <- (sexec_sound r p _ _ E). apply exec_ext. reflexivity. Qed.

Lemma map_nth_seq {A} (l : list A) d n : length l = n -> map (fun i => nth i l d) (seq 0 n) = l.
Proof.
  intros <-. induction l as [|x l IH]; [reflexivity|].
  cbn [length seq map nth]. f_equal. rewrite <- seq_shift, map_map. exact IH.
Qed.

Lemma forallb_seqb_map n (s : nat -> sexpr) (e : nat -> sexpr) r :
  forallb (fun i => seqb (s i) (e i)) (seq 0 n) = true ->
  map (fun i => den r (s i)) (seq 0 n) = map (fun i => den r (e i)) (seq 0 n).
Proof.
  intros H. rewrite forallb_forall in H. apply map_ext_in. intros i Hi.
  f_equal. apply seqb_eq. apply H. exact Hi.
Qed.

Lemma pre_ok_sound n pre input xk xt :
  pre_ok n pre = true -> length input = n -> length xk = (n + 1)%nat -> length xt = 3%nat ->
  let r := exec pre (call_env input xk xt) in
  state n r = input /\ keys n r = xk /\ tweaks r = xt.
Proof.
  unfold pre_ok. cbv zeta. intros H Li Lk Lt. set (r := exec pre (call_env input xk xt)).
  destruct (sexec pre sinit) eqn:E; [|discriminate].
  apply andb_prop in H. destruct H as [H H3]. apply andb_prop in H. destruct H as [H1 H2].
  set (c := call_env input xk xt) in *.
  assert (R : forall v, r v = den c (s v)) by (intros v; apply sexec_init_sound; exact E).
  split; [|split].
  - unfold state. rewrite (map_ext _ (fun i => den c (s (B i)))) by (intros; apply R).
    rewrite (forallb_seqb_map _ _ _ c H1). cbn [den]. unfold c, call_env. apply map_nth_seq, Li.
  - unfold keys. rewrite (map_ext _ (fun i => den c (s (K i)))) by (intros; apply R).
    rewrite (forallb_seqb_map _ _ _ c H2). cbn [den]. unfold c, call_env. apply map_nth_seq, Lk.
  - unfold tweaks. rewrite (map_ext _ (fun i => den c (s (T i)))) by (intros; apply R).
    rewrite (forallb_seqb_map _ _ _ c H3). cbn [den]. unfold c, call_env. apply map_nth_seq, Lt.
Qed.

Lemma out_ok_sound n out ex r :
  out_ok n out ex = true -> outputs n (exec out r) = map (den r) ex.
Proof.
  unfold out_ok. intros H. destruct (sexec out sinit) eqn:E; [|discriminate].
  apply andb_prop in H. destruct H as [H L]. apply Nat.eqb_eq in L.
  unfold outputs. rewrite (map_ext _ (fun i => den r (s (Out i))))
    by (intros; apply sexec_init_sound; exact E).
  rewrite (forallb_seqb_map _ _ _ r H).
  rewrite <- (map_map (fun i => nth i ex bad) (den r)). f_equal. apply map_nth_seq, L.
Qed.

Lemma chunk_keeps n p ex r : chunk_ok n p ex = true ->
  keys n (exec p r) = keys n r /\ tweaks (exec p r) = tweaks r.
Proof.
  unfold chunk_ok. intros H. apply andb_prop in H. destruct H as [H _].
  split; apply map_ext; intros i; apply (exec_other p H); congruence.
Qed.

(** One step of the loop over chunks: chunk number [s] does the rounds [ds s]. *)
Section Chunks.
  Variable p : tf_params.
  Variable enc : bool.
  Definition rnd A := if enc then round A p else unround A p.
  Variable ds : nat -> list nat.

  Definition chunks_ok (base len : nat) (body : list stmt) (ss : list nat) : bool :=
    forallb (fun js => chunk_ok (nw p) (slice (base + fst js * len) len body)
                       (fold_left (rnd sym (Ks (nw p)) Ts) (ds (snd js)) (Bs (nw p))))
            (combine (seq 0 (length ss)) ss).

  Lemma chunk_sound q s r :
    chunk_ok (nw p) q (fold_left (rnd sym (Ks (nw p)) Ts) (ds s) (Bs (nw p))) = true ->
    state (nw p) (exec q r)
    = fold_left (rnd word64 (keys (nw p) r) (tweaks r)) (ds s) (state (nw p) r).
  Proof.
    intros H. unfold state at 1. rewrite (chunk_ok_sound _ _ _ r H).
    unfold rnd. destruct enc.
    - rewrite hom_enc, den_Bs, den_Ks, den_Ts. reflexivity.
    - rewrite hom_dec, den_Bs, den_Ks, den_Ts. reflexivity.
  Qed.

  Lemma skipn_skipn {A} a b (l : list A) : skipn a (skipn b l) = skipn (b + a) l.
  Proof.
    revert l. induction b as [|b IH]; intros l; [reflexivity|].
    destruct l; [now rewrite skipn_nil|]. apply IH.
  Qed.

  Lemma firstn_plus {A} a b (l : list A) : firstn (a + b) l = firstn a l ++ firstn b (skipn a l).
  Proof.
    revert l. induction a as [|a IH]; intros l; [reflexivity|].
    destruct l as [|x l]; [now rewrite !firstn_nil|]. cbn. f_equal. apply IH.
  Qed.

  Lemma chunks_sound len body : forall ss base r,
    chunks_ok base len body ss = true ->
    let r' := exec (firstn (length ss * len) (skipn base body)) r in
    state (nw p) r' = fold_left (rnd word64 (keys (nw p) r) (tweaks r)) (flat_map ds ss) (state (nw p) r)
    /\ keys (nw p) r' = keys (nw p) r /\ tweaks r' = tweaks r.
  Proof.
    assert (G : forall ss j base r,
      forallb (fun js => chunk_ok (nw p) (slice (base + fst js * len) len body)
                       (fold_left (rnd sym (Ks (nw p)) Ts) (ds (snd js)) (Bs (nw p))))
            (combine (seq j (length ss)) ss) = true ->
      let r' := exec (firstn (length ss * len) (skipn (base + j * len) body)) r in
      state (nw p) r' = fold_left (rnd word64 (keys (nw p) r) (tweaks r)) (flat_map ds ss) (state (nw p) r)
      /\ keys (nw p) r' = keys (nw p) r /\ tweaks r' = tweaks r).
    { induction ss as [|s ss IH]; intros j base r H.
      - cbn. auto.
      - cbn [length seq combine forallb fst snd] in H. apply andb_prop in H. destruct H as [H1 H2].
        cbn [length flat_map]. rewrite fold_left_app.
        replace (S (length ss) * len)%nat with (len + length ss * len)%nat by lia.
        assert (S1 : firstn (len + length ss * len) (skipn (base + j * len) body)
                = slice (base + j * len) len body
                  ++ firstn (length ss * len) (skipn (base + S j * len) body)).
        { unfold slice.
          replace (base + S j * len)%nat with ((base + j * len) + len)%nat by lia.
          rewrite <- (skipn_skipn len (base + j * len)). apply firstn_plus. }
        rewrite S1. unfold exec. rewrite fold_left_app. fold (exec (slice (base + j * len) len body) r).
        set (r1 := exec (slice (base + j * len) len body) r).
        fold (exec (firstn (length ss * len) (skipn (base + S j * len) body)) r1).
        specialize (IH (S j) base r1 H2). cbv zeta in IH. destruct IH as [I1 [I2 I3]].
        destruct (chunk_keeps _ _ _ r H1) as [Kk Kt]. fold r1 in Kk, Kt.
        rewrite I1, I2, I3, Kk, Kt. split; [|split; reflexivity].
        f_equal. apply (chunk_sound _ s r H1). }
    intros ss base r H. specialize (G ss 0%nat base r H).
    rewrite Nat.add_0_r in G. exact G.
  Qed.
End Chunks.

Definition four (s : nat) : list nat := [4 * s; 4 * s + 1; 4 * s + 2; 4 * s + 3]%nat.
Definition four_rev (s : nat) : list nat := [4 * s + 3; 4 * s + 2; 4 * s + 1; 4 * s]%nat.

(** Whole-body checks. *)
Definition enc_ok (p : tf_params) (len : nat) (body : list stmt) : bool :=
  let n := nw p in let np := (2 * n + 4)%nat in let nc := (nr p / 4)%nat in
  pre_ok n (firstn np body)
  && chunks_ok p true four np len body (seq 0 nc)
  && out_ok n (skipn (np + nc * len) body) (map2 sym sadd (Bs n) (subkey sym p (Ks n) Ts nc)).
Definition dec_ok (p : tf_params) (len : nat) (body : list stmt) : bool :=
  let n := nw p in let np := (2 * n + 4)%nat in let nc := (nr p / 4)%nat in
  pre_ok n (firstn np body)
  && chunk_ok n (slice np n body) (map2 sym ssub (Bs n) (subkey sym p (Ks n) Ts nc))
  && chunks_ok p false four_rev (np + n) len body (rev (seq 0 nc))
  && out_ok n (skipn (np + n + nc * len) body) (Bs n).

Lemma split3 (body : list stmt) a b :
  body = firstn a body ++ firstn b (skipn a body) ++ skipn (a + b) body.
Proof.
  rewrite <- (firstn_skipn a body) at 1. f_equal.
  rewrite <- (firstn_skipn b (skipn a body)) at 1. f_equal. apply skipn_skipn.
Qed.

Lemma exec_app a b r : exec (a ++ b) r = exec b (exec a r).
Proof. unfold exec. apply fold_left_app. Qed.

Lemma enc_ok_sound p len body input xk xt :
  enc_ok p len body = true ->
  flat_map four (seq 0 (nr p / 4)) = seq 0 (nr p) ->
  length input = nw p -> length xk = (nw p + 1)%nat -> length xt = 3%nat ->
  run_body (nw p) body input xk xt = enc_ext word64 p xk xt input.
Proof.
  unfold enc_ok. cbv zeta. intros H Hds Li Lk Lt.
  apply andb_prop in H. destruct H as [H H3]. apply andb_prop in H. destruct H as [H1 H2].
  set (np := (2 * nw p + 4)%nat) in *. set (nc := (nr p / 4)%nat) in *.
  unfold run_body. rewrite (split3 body np (nc * len)). rewrite !exec_app.
  destruct (pre_ok_sound _ _ input xk xt H1 Li Lk Lt) as [P1 [P2 P3]].
  set (r0 := exec (firstn np body) (call_env input xk xt)) in *.
  pose proof (chunks_sound p true four len body (seq 0 nc) np r0 H2) as C.
  cbv zeta in C. rewrite seq_length in C. destruct C as [C1 [C2 C3]].
  set (r1 := exec (firstn (nc * len) (skipn np body)) r0) in *.
  rewrite (out_ok_sound _ _ _ r1 H3). rewrite hom_addk, den_Bs, den_Ks, den_Ts.
  rewrite C1, C2, C3, P1, P2, P3, Hds. reflexivity.
Qed.

Lemma dec_ok_sound p len body input xk xt :
  dec_ok p len body = true ->
  flat_map four_rev (rev (seq 0 (nr p / 4))) = rev (seq 0 (nr p)) ->
  length input = nw p -> length xk = (nw p + 1)%nat -> length xt = 3%nat ->
  run_body (nw p) body input xk xt = dec_ext word64 p xk xt input.
Proof.
  unfold dec_ok. cbv zeta. intros H Hds Li Lk Lt.
  apply andb_prop in H. destruct H as [H H4].
  apply andb_prop in H. destruct H as [H H3]. apply andb_prop in H. destruct H as [H1 H2].
  set (np := (2 * nw p + 4)%nat) in *. set (nc := (nr p / 4)%nat) in *.
  unfold run_body. rewrite (split3 body np (nw p)). rewrite !exec_app.
  rewrite <- (firstn_skipn (nc * len) (skipn (np + nw p) body)). rewrite exec_app.
  rewrite (skipn_skipn (nc * len)).
  destruct (pre_ok_sound _ _ input xk xt H1 Li Lk Lt) as [P1 [P2 P3]].
  set (r0 := exec (firstn np body) (call_env input xk xt)) in *.
  destruct (chunk_keeps _ _ _ r0 H2) as [Kk Kt].
  pose proof (chunk_ok_sound _ _ _ r0 H2) as S0.
  fold (slice np (nw p) body).
  set (r1 := exec (slice np (nw p) body) r0) in *.
  change (map (fun i => r1 (B i)) (seq 0 (nw p))) with (state (nw p) r1) in S0.
  rewrite hom_subk, den_Bs, den_Ks, den_Ts in S0.
  pose proof (chunks_sound p false four_rev len body (rev (seq 0 nc)) (np + nw p) r1 H3) as C.
  cbv zeta in C. rewrite rev_length, seq_length in C. destruct C as [C1 [C2 C3]].
  set (r2 := exec (firstn (nc * len) (skipn (np + nw p) body)) r1) in *.
  rewrite (out_ok_sound _ _ _ r2 H4). rewrite den_Bs.
  rewrite C1, S0, Kk, Kt, P1, P2, P3, Hds. reflexivity.
Qed.
