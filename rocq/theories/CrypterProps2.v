(** * C04, C06: a used cipher against a freshly built one. *)
From Coq Require Import List ZArith Lia Bool.
From Verif Require Import TfLang TfSpec CrypterModel CrypterSpec CrypterContract CrypterProofs3 CrypterProofs4 CrypterProps.
Import ListNotations.
Open Scope Z_scope.

(** ** C04  After any history, a cipher answers the next call as one freshly built with the key and the tweak now in force: the same bytes, or
    the same panic.  (stateSize says which constructor: New and NewSize record the block size, New64 an eighth of it, C06.) *)
Theorem C04_like_fresh :
  forall c0 p st ops c f o,
    created c0 p st -> Forall wf_op ops -> run c0 ops = Some c ->
    created f p (settings p st ops) -> stateSize f = stateSize c0 -> wf_op o ->
    option_map snd (step c o) = option_map snd (step f o).
Proof.
  intros c0 p st ops c f o C W R F Sz Wo.
  destruct (created_inv _ _ _ C) as [v [ss [<- [I _]]]]. destruct (created_inv _ _ _ F) as [v' [ss' [E [I' _]]]].
  assert (v' = v) by (destruct v, v'; try reflexivity; discriminate E). subst v'.
  pose proof (run_inv _ _ _ _ _ _ I W R) as I1.
  assert (ss' = ss).
  { destruct st as [[? ?] ?], (settings (params v) _ ops) as [[? ?] ?]. destruct I as [_ [I _]], I' as [_ [I' _]]. congruence. }
  subst ss'. apply (step_obs _ _ _ _ _ _ I1 I' Wo).
Qed.
Print Assumptions C04_like_fresh.

(** In particular: re-keyed with the key and tweak kb, tw, a cipher from New or NewSize is the cipher New makes of kb and tw. *)
Theorem C04_like_New :
  forall c0 p st ops c kb tw t0 t1 f o,
    created c0 p st -> stateSize c0 = 64 * Z.of_nat (nw p) -> Forall wf_op ops -> run c0 ops = Some c ->
    params_of (length kb) = Some p -> tweak_words tw = Some (t0, t1) -> New kb tw = Ret f ->
    settings p st ops = (words_of_bytes (nw p) kb, t0, t1) -> wf_op o ->
    option_map snd (step c o) = option_map snd (step f o).
Proof.
  intros c0 p st ops c kb tw t0 t1 f o C Sz W R P T N S1 Wo.
  apply (C04_like_fresh c0 p st ops c f o C W R); [rewrite S1; exact (by_New kb tw f p t0 t1 P T N)| |exact Wo].
  rewrite Sz. apply (C03_New_has_full_state_size kb tw f p P N).
Qed.
Print Assumptions C04_like_New.

(** ** C06  The byte interface of a cipher from New64, after any history. *)
Theorem C06_New64_bytes_after_history :
  forall key0 tw0 c0 p a0 a1 ops c key t0 t1 mem d s,
    params_of_words (length key0) = Some p -> tweak_words tw0 = Some (a0, a1) -> New64 key0 tw0 = Ret c0 ->
    Forall wf_op ops -> run c0 ops = Some c -> settings p (key0, a0, a1) ops = (key, t0, t1) ->
    wf_op (OpEncrypt mem d s) -> (nw p <= cap d)%nat -> (nw p <= cap s)%nat ->
    let u := (nw p / 8)%nat in
    exists c', Encrypt c mem d s
      = Some (c', overwrite mem (off d)
            (bytes_of_words (firstn u (threefish_encrypt word64 p key t0 t1
               (words_of_bytes u (region mem (off s) (8 * u)) ++ repeat 0 (nw p - u)))))).
Proof.
  intros key0 tw0 c0 p a0 a1 ops c key t0 t1 mem d s P T N W R S1 Wo Cd Cs u.
  assert (C : created c0 p (key0, a0, a1)) by exact (by_New64 key0 tw0 c0 p a0 a1 P T N).
  assert (L : length key = nw p).
  { destruct (created_inv _ _ _ C) as [v [ss [<- [I _]]]]. pose proof (run_inv _ _ _ _ _ _ I W R) as I1. rewrite S1 in I1.
    rewrite params_nw. apply I1. }
  assert (L0 : length key0 = nw p).
  { destruct (created_inv _ _ _ C) as [v [ss [<- [I _]]]]. rewrite params_nw. apply I. }
  assert (P' : params_of_words (length key) = Some p) by (rewrite L, <- L0; exact P).
  assert (T' : tweak_words (Some [t0; t1]) = Some (t0, t1)) by reflexivity.
  pose proof (C05_New64_accepts_exactly key (Some [t0; t1])) as A. rewrite P', T' in A. destruct A as [f N'].
  assert (F : created f p (settings p (key0, a0, a1) ops)) by (rewrite S1; exact (by_New64 key _ f p t0 t1 P' T' N')).
  assert (Sz : stateSize f = stateSize c0).
  { pose proof (proj1 (C06_New64_blocksize_refuted _ _ _ N)) as B0. pose proof (proj1 (C06_New64_blocksize_refuted _ _ _ N')) as B1.
    destruct (created_inv _ _ _ C) as [v [ss [E [I D]]]], (created_inv _ _ _ F) as [v' [ss' [E' [I' D']]]]. rewrite S1 in I'.
    destruct I as [_ [I _]], I' as [_ [I' _]]. unfold BlockSize in B0, B1. rewrite L0 in B0. rewrite L in B1.
    assert (v' = v) by (destruct v, v'; try reflexivity; rewrite <- E in E'; discriminate E'). subst v'. subst p. rewrite params_nw in *.
    rewrite <- I in D. rewrite <- I' in D'. clear - B0 B1 D D'. destruct D as [D|D], D' as [D'|D']; rewrite D in B0; rewrite D' in B1;
      destruct v; cbn [qwords] in *; try congruence; vm_compute in B0; vm_compute in B1; discriminate. }
  pose proof (C04_like_fresh c0 p _ ops c f (OpEncrypt mem d s) C W R F Sz Wo) as Q. cbn [step] in Q.
  destruct (C06_New64_bytes_exact key (Some [t0; t1]) f p t0 t1 mem d s P' T' N' Wo Cd Cs) as [c' E]. rewrite E in Q.
  destruct (Encrypt c mem d s) as [[c1 m]|]; [|discriminate Q]. cbn [option_map snd] in Q. injection Q as ->. exists c1. reflexivity.
Qed.
Print Assumptions C06_New64_bytes_after_history.

(** ** Non-vacuity: a 512-bit cipher re-keyed after an encryption. *)
Example like_New_example :
  let ops := [OpEncrypt (repeat 5 64) {| off := 0; cap := 64 |} {| off := 0; cap := 64 |};
              OpSetKey (repeat 0 8); OpSetTweak (Some [1; 2])] in
  exists c0 c f, New (repeat 9 64) (Some [3; 4]) = Ret c0 /\ run c0 ops = Some c /\ New (repeat 0 64) (Some [1; 2]) = Ret f
    /\ settings tf512 (words_of_bytes 8 (repeat 9 64), 3, 4) ops = (words_of_bytes 8 (repeat 0 64), 1, 2) /\ Forall wf_op ops.
Proof.
  do 3 eexists. split; [vm_compute; reflexivity|]. split; [vm_compute; reflexivity|]. split; [vm_compute; reflexivity|].
  split; [reflexivity|]. repeat constructor; cbn; lia.
Qed.
