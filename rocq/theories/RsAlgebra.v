(** * Polynomials and Reed-Solomon codes over an integral domain of characteristic 2 (abstract). *)
From Coq Require Import List Bool Lia Arith Ring.
Import ListNotations.

Section RS.
  Variable K : Type.
  Variables (k0 k1 : K) (kadd kmul : K -> K -> K).
  Hypothesis RT : ring_theory k0 k1 kadd kmul kadd (fun x => x) eq.
  Hypothesis Dom : forall x y, kmul x y = k0 -> x = k0 \/ y = k0.
  Hypothesis Kdec : forall x y : K, {x = y} + {x <> y}.
  Hypothesis One : k1 <> k0.

  Definition kphi (b : bool) : K := if b then k1 else k0.
  Lemma kphi_morph : ring_morph k0 k1 kadd kmul kadd (fun x => x) eq false true xorb andb xorb (fun b => b) Bool.eqb kphi.
  Proof.
    constructor; auto.
    - intros [] []; cbn; try (rewrite (Radd_0_l RT); reflexivity).
      + rewrite (Ropp_def RT). reflexivity.
      + rewrite (Radd_comm RT), (Radd_0_l RT). reflexivity.
    - intros [] []; cbn; try (rewrite (Radd_0_l RT); reflexivity).
      + rewrite (Ropp_def RT). reflexivity.
      + rewrite (Radd_comm RT), (Radd_0_l RT). reflexivity.
    - intros [] []; cbn; try (rewrite (Rmul_1_l RT); reflexivity).
      + rewrite <- (Radd_0_l RT (kmul k0 k1)), <- (Ropp_def RT k1) at 1.
        rewrite (Rmul_comm RT k0 k1), (Rmul_1_l RT), (Ropp_def RT), (Radd_0_l RT). reflexivity.
      + assert (E : kmul k0 k0 = kadd (kmul k0 k0) (kmul k0 k0)) by (rewrite <- (Rdistr_l RT), (Radd_0_l RT); reflexivity).
        rewrite (Ropp_def RT) in E. auto.
    - intros [] [] E; try reflexivity; discriminate.
  Qed.
  Ltac kcst t := match t with k0 => constr:(false) | k1 => constr:(true) | _ => InitialRing.NotConstant end.
  Add Ring Kring : RT (morphism kphi_morph, constants [kcst]).

  Fixpoint kpow (x : K) (n : nat) : K := match n with O => k1 | S m => kmul x (kpow x m) end.
  Lemma kpow_add x m n : kpow x (m + n) = kmul (kpow x m) (kpow x n).
  Proof. induction m as [|m IH]; cbn; [ring|]. rewrite IH. ring. Qed.
  Lemma kpow_mul_base x y n : kpow (kmul x y) n = kmul (kpow x n) (kpow y n).
  Proof. induction n as [|n IH]; cbn; [ring|]. rewrite IH. ring. Qed.
  Lemma kpow_mul x m n : kpow x (m * n) = kpow (kpow x m) n.
  Proof. induction n as [|n IH]; [rewrite Nat.mul_0_r; reflexivity|]. rewrite Nat.mul_succ_r, kpow_add, IH. cbn. ring. Qed.
  Lemma kadd_eq x y : kadd x y = k0 -> x = y.
  Proof. intros E. replace x with (kadd (kadd x y) y) by ring. rewrite E. ring. Qed.

  (** ** Evaluation *)
  Fixpoint ev (p : list K) (r : K) : K := match p with [] => k0 | c :: q => kadd (kmul c (kpow r (length q))) (ev q r) end.
  Lemma ev_app p q r : ev (p ++ q) r = kadd (kmul (ev p r) (kpow r (length q))) (ev q r).
  Proof. induction p as [|c p IH]; cbn; [ring|]. rewrite IH, app_length, kpow_add. ring. Qed.
  Lemma ev_horner_acc p : forall acc r, fold_left (fun acc c => kadd (kmul acc r) c) p acc = kadd (kmul acc (kpow r (length p))) (ev p r).
  Proof. induction p as [|c p IH]; intros acc r; cbn; [ring|]. rewrite IH. ring. Qed.
  Lemma ev_horner p r : fold_left (fun acc c => kadd (kmul acc r) c) p k0 = ev p r.
  Proof. rewrite ev_horner_acc. ring. Qed.
  Lemma ev_repeat n r : ev (repeat k0 n) r = k0.
  Proof. induction n as [|n IH]; cbn; [reflexivity|]. rewrite IH. ring. Qed.

  Fixpoint zip (p q : list K) : list K :=
    match p, q with a :: p', b :: q' => kadd a b :: zip p' q' | _, _ => [] end.
  Lemma zip_length p : forall q, length p = length q -> length (zip p q) = length p.
  Proof. induction p as [|a p IH]; intros [|b q] E; cbn in *; try lia. f_equal. apply IH. lia. Qed.
  Lemma ev_zip p : forall q r, length p = length q -> ev (zip p q) r = kadd (ev p r) (ev q r).
  Proof.
    induction p as [|a p IH]; intros [|b q] r E; cbn in *; try lia; [ring|].
    rewrite IH by lia. rewrite zip_length by lia. replace (length q) with (length p) by lia. ring.
  Qed.

  (** ** The generator polynomial *)
  Fixpoint pass (c : K) (p : list K) : list K :=
    match p with
    | [] => []
    | [a] => [kmul a c]
    | a :: ((b :: _) as p') => kadd (kmul a c) b :: pass c p'
    end.
  Lemma pass_length c p : length (pass c p) = length p.
  Proof. induction p as [|a [|b t] IH]; [reflexivity|reflexivity|]. cbn [pass length] in *. rewrite IH. reflexivity. Qed.
  Lemma pass_ev c r p : ev (pass c p) r = kadd (kmul (ev p r) (kadd r c)) (kmul (hd k0 p) (kpow r (length p))).
  Proof.
    induction p as [|a [|b t] IH]; [cbn; ring|cbn; ring|].
    change (pass c (a :: b :: t)) with (kadd (kmul a c) b :: pass c (b :: t)).
    cbn [ev]. rewrite IH, pass_length. cbn [hd length ev kpow]. ring.
  Qed.
  Fixpoint passes (cs : list K) (p : list K) : list K :=
    match cs with [] => p | c :: cs' => passes cs' (pass c p) end.
  Lemma passes_length cs : forall p, length (passes cs p) = length p.
  Proof. induction cs as [|c cs IH]; intros p; cbn; [reflexivity|]. rewrite IH, pass_length. reflexivity. Qed.
  Lemma pass_shape c k : forall t, exists t', pass c (repeat k0 (S k) ++ k1 :: t) = repeat k0 k ++ k1 :: t' /\ length t' = S (length t).
  Proof.
    induction k as [|k IH]; intros t.
    - exists (pass c (k1 :: t)). split; [|rewrite pass_length; reflexivity].
      change (pass c (repeat k0 1 ++ k1 :: t)) with (kadd (kmul k0 c) k1 :: pass c (k1 :: t)). cbn [repeat app]. f_equal. ring.
    - destruct (IH t) as [t' [E L]]. exists t'. split; [|exact L].
      change (pass c (repeat k0 (S (S k)) ++ k1 :: t)) with (kadd (kmul k0 c) k0 :: pass c (repeat k0 (S k) ++ k1 :: t)).
      rewrite E. cbn [repeat app]. f_equal. ring.
  Qed.
  Fixpoint prod (cs : list K) (r : K) : K := match cs with [] => k1 | c :: cs' => kmul (kadd r c) (prod cs' r) end.
  Lemma passes_spec cs : forall t, exists t', passes cs (repeat k0 (length cs) ++ k1 :: t) = k1 :: t'
    /\ length t' = (length cs + length t)%nat
    /\ forall r, ev (k1 :: t') r = kmul (prod cs r) (ev (k1 :: t) r).
  Proof.
    induction cs as [|c cs IH]; intros t; cbn [length passes].
    - exists t. split; [reflexivity|]. split; [reflexivity|]. intros r. cbn [prod]. ring.
    - destruct (pass_shape c (length cs) t) as [t1 [E1 L1]]. rewrite E1. destruct (IH t1) as [t' [E [L V]]].
      exists t'. split; [exact E|]. split; [lia|]. intros r. rewrite V. cbn [prod].
      assert (X : ev (repeat k0 (length cs) ++ k1 :: t1) r = ev (k1 :: t1) r) by (rewrite ev_app, ev_repeat; ring).
      assert (Y : ev (repeat k0 (S (length cs)) ++ k1 :: t) r = ev (k1 :: t) r) by (rewrite ev_app, ev_repeat; ring).
      rewrite <- X, <- E1, pass_ev, Y. change (hd k0 (repeat k0 (S (length cs)) ++ k1 :: t)) with k0. ring.
  Qed.
  Definition gpoly (cs : list K) : list K := passes cs (repeat k0 (length cs) ++ [k1]).
  Lemma gpoly_spec cs : exists t, gpoly cs = k1 :: t /\ length t = length cs /\ forall r, ev (k1 :: t) r = prod cs r.
  Proof.
    destruct (passes_spec cs []) as [t [E [L V]]]. exists t. split; [exact E|]. split; [cbn in L; lia|].
    intros r. rewrite V. cbn. ring.
  Qed.
  Lemma prod_zero cs r : prod cs r = k0 <-> In r cs.
  Proof.
    induction cs as [|c cs IH]; cbn; [split; [intros E; destruct (One E)|tauto]|]. split.
    - intros E. apply Dom in E. destruct E as [E|E]; [left; symmetry; apply kadd_eq; exact E|right; apply IH; exact E].
    - intros [->|H]; [ring|]. rewrite (proj2 IH H). ring.
  Qed.

  (** ** Synthetic division *)
  Fixpoint inner (c : K) (g q : list K) : list K :=
    match g, q with [], _ => q | x :: g', y :: q' => kadd y (kmul c x) :: inner c g' q' | _, [] => [] end.
  Lemma inner_length c g : forall q, length (inner c g q) = length q.
  Proof. induction g as [|x g IH]; intros [|y q]; cbn; auto. Qed.
  Lemma inner_ev c g : forall q r, (length g <= length q)%nat ->
    ev (inner c g q) r = kadd (ev q r) (kmul c (kmul (ev g r) (kpow r (length q - length g)))).
  Proof.
    induction g as [|x g IH]; intros [|y q] r H; cbn in *; try lia; try ring.
    rewrite IH by lia. rewrite inner_length. replace (kpow r (length q)) with (kmul (kpow r (length g)) (kpow r (length q - length g))); [ring|].
    rewrite <- kpow_add. f_equal. lia.
  Qed.
  Fixpoint divide (g : list K) (steps : nat) (p : list K) : list K :=
    match steps, p with
    | S s, c :: q => divide g s (inner c g q)
    | _, _ => p
    end.
  Lemma divide_length g s : forall p, (s <= length p)%nat -> length (divide g s p) = (length p - s)%nat.
  Proof.
    induction s as [|s IH]; intros [|c q] H; cbn [length divide] in *; try lia.
    rewrite IH; rewrite inner_length; lia.
  Qed.
  Lemma divide_ev g s r : ev (k1 :: g) r = k0 -> forall p, (s + length g <= length p)%nat -> ev (divide g s p) r = ev p r.
  Proof.
    intros R. assert (R' : ev g r = kpow r (length g)).
    { symmetry. apply kadd_eq. cbn in R. rewrite <- R. ring. }
    induction s as [|s IH]; intros [|c q] H; cbn [divide length] in *; try reflexivity.
    rewrite IH by (rewrite inner_length; lia). rewrite inner_ev by lia. rewrite R'. cbn [ev].
    replace (kpow r (length q)) with (kmul (kpow r (length g)) (kpow r (length q - length g))); [ring|].
    rewrite <- kpow_add. f_equal. lia.
  Qed.

  (** ** Distance *)
  Fixpoint lsum (l : list (K * K)) (g : K -> K) : K := match l with [] => k0 | (d, x) :: l' => kadd (kmul d (g x)) (lsum l' g) end.
  Lemma lsum_ext l g h : (forall x, g x = h x) -> lsum l g = lsum l h.
  Proof. intros E. induction l as [|[d x] l IH]; cbn; [reflexivity|]. rewrite E, IH. reflexivity. Qed.
  Lemma lsum_lin l g h c : lsum l (fun x => kadd (g x) (kmul c (h x))) = kadd (lsum l g) (kmul c (lsum l h)).
  Proof. induction l as [|[d x] l IH]; cbn; [ring|]. rewrite IH. ring. Qed.
  Lemma lsum_prod l c : (forall j, (j < c)%nat -> lsum l (fun x => kpow x j) = k0) ->
    forall cs m, (m + length cs < c)%nat -> lsum l (fun x => kmul (kpow x m) (prod cs x)) = k0.
  Proof.
    intros H. induction cs as [|y cs IH]; intros m Hm; cbn [length] in Hm.
    - rewrite <- (H m) by lia. apply lsum_ext. intros x. cbn. ring.
    - rewrite (lsum_ext l _ (fun x => kadd (kmul (kpow x (S m)) (prod cs x)) (kmul y (kmul (kpow x m) (prod cs x))))).
      + rewrite lsum_lin, (IH (S m)), (IH m) by lia. ring.
      + intros x. cbn. ring.
  Qed.
  Definition nz (x : K) : bool := if Kdec x k0 then false else true.
  Definition weight (d : list K) : nat := length (filter nz d).
  Lemma lsum_zero l g : (forall d x, In (d, x) l -> d = k0 \/ g x = k0) -> lsum l g = k0.
  Proof.
    induction l as [|[d x] l IH]; intros H; cbn; [reflexivity|]. rewrite IH by (intros; apply H; right; assumption).
    destruct (H d x (or_introl eq_refl)) as [->| ->]; ring.
  Qed.
  Lemma pairs_weight l c : NoDup (map snd l) ->
    (forall j, (j < c)%nat -> lsum l (fun x => kpow x j) = k0) ->
    weight (map fst l) = 0%nat \/ (c < weight (map fst l))%nat.
  Proof.
    intros ND H. destruct (le_lt_dec (weight (map fst l)) c) as [L|L]; [left|right; exact L].
    revert ND H L. induction l as [|[d x] l IH]; intros ND H L; [reflexivity|].
    unfold weight in *. cbn [map fst filter] in *. unfold nz at 1 in L. unfold nz at 1. inversion ND as [|? ? Nx ND']; subst.
    destruct (Kdec d k0) as [->|Nd].
    - apply IH; [exact ND'| |exact L]. intros j Hj. rewrite <- (H j Hj). cbn. ring.
    - exfalso. cbn [length] in L.
      set (cs := map snd (filter (fun p => nz (fst p)) l)).
      assert (Lc : length cs = length (filter nz (map fst l))).
      { unfold cs. rewrite map_length. clear. induction l as [|[d x] l IH]; cbn; [reflexivity|]. destruct (nz d); cbn; rewrite IH; reflexivity. }
      pose proof (lsum_prod ((d, x) :: l) c H cs 0 ltac:(lia)) as E. cbn [lsum] in E.
      rewrite (lsum_zero l) in E.
      + assert (E' : kmul d (prod cs x) = k0) by (rewrite <- E; cbn; ring).
        apply Dom in E'. destruct E' as [E'|E']; [exact (Nd E')|]. apply prod_zero in E'. apply Nx.
        unfold cs in E'. apply in_map_iff in E'. destruct E' as [[d' x'] [Ex I]]. cbn in Ex. subst x'.
        apply filter_In in I. apply in_map_iff. exists (d', x). tauto.
      + intros d' x' I. destruct (Kdec d' k0) as [Z|Z]; [left; exact Z|right].
        replace (prod cs x') with k0; [ring|]. symmetry. apply prod_zero. unfold cs. apply in_map_iff. exists (d', x').
        split; [reflexivity|]. apply filter_In. split; [exact I|]. cbn. unfold nz. destruct (Kdec d' k0); [contradiction|reflexivity].
  Qed.
  (** The evaluation points of a word of length n read most significant first. *)
  Fixpoint points (a : K) (d : list K) : list (K * K) := match d with [] => [] | c :: q => (c, kpow a (length q)) :: points a q end.
  Lemma points_fst a d : map fst (points a d) = d.
  Proof. induction d as [|c d IH]; cbn; [reflexivity|]. rewrite IH. reflexivity. Qed.
  Lemma points_ev a j d : lsum (points a d) (fun x => kpow x j) = ev d (kpow a j).
  Proof. induction d as [|c d IH]; cbn; [reflexivity|]. rewrite IH, <- !kpow_mul, Nat.mul_comm. reflexivity. Qed.
  Lemma points_nodup a N : (forall i j, (i < N)%nat -> (j < N)%nat -> kpow a i = kpow a j -> i = j) ->
    forall d, (length d <= N)%nat -> NoDup (map snd (points a d)).
  Proof.
    intros Inj. induction d as [|c d IH]; intros H; cbn in *; [constructor|]. constructor; [|apply IH; lia].
    intros I. apply in_map_iff in I. destruct I as [[c' x] [E I]]. cbn in E. subst x.
    assert (X : exists k, (k < length d)%nat /\ kpow a (length d) = kpow a k).
    { revert I. generalize (kpow a (length d)). clear. intros x. induction d as [|e d IH]; cbn; [tauto|]. intros [E|E].
      - inversion E; subst. exists (length d). split; [lia|reflexivity].
      - destruct (IH E) as [k [Hk Ek]]. exists k. split; [lia|exact Ek]. }
    destruct X as [k [Hk E]]. apply Inj in E; lia.
  Qed.
  Theorem rs_distance a N c d :
    (forall i j, (i < N)%nat -> (j < N)%nat -> kpow a i = kpow a j -> i = j) -> (length d <= N)%nat ->
    (forall j, (j < c)%nat -> ev d (kpow a j) = k0) -> weight d = 0%nat \/ (c < weight d)%nat.
  Proof.
    intros Inj L H. rewrite <- (points_fst a d). apply pairs_weight; [apply (points_nodup a N Inj); exact L|].
    intros j Hj. rewrite points_ev. apply H. exact Hj.
  Qed.
End RS.
