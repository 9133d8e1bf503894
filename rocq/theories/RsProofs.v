(** * gf256's Reed-Solomon encoder against the abstract theory. *)
From Coq Require Import NArith ZArith List Bool Lia Arith Ring Eqdep_dec.
From Verif Require Import Gf256Model Gf256Spec Gf2Poly Gf256Proofs RsAlgebra.
Import ListNotations.
Open Scope N_scope.

Definition GF : Type := {x : N | (x <? 256) = true}.
Definition out (k : GF) : N := proj1_sig k.
Lemma mod_lt x : (x mod 256 <? 256) = true.
Proof. apply N.ltb_lt. apply N.mod_lt. discriminate. Qed.
Definition inj (x : N) : GF := exist _ (x mod 256) (mod_lt x).
Lemma out_lt k : out k < 256. Proof. destruct k as [x H]. apply N.ltb_lt. exact H. Qed.
Lemma out_inj x : x < 256 -> out (inj x) = x. Proof. intros H. cbn. apply N.mod_small. exact H. Qed.
Lemma out_eq k l : out k = out l -> k = l.
Proof. destruct k as [x H], l as [y H']. cbn. intros ->. f_equal. apply UIP_dec. apply bool_dec. Qed.
Lemma inj_out k : inj (out k) = k. Proof. apply out_eq. apply out_inj. apply out_lt. Qed.
Lemma inj_eq x y : x < 256 -> y < 256 -> inj x = inj y -> x = y.
Proof. intros Hx Hy E. rewrite <- (out_inj x Hx), <- (out_inj y Hy), E. reflexivity. Qed.
Lemma gf_dec (x y : GF) : {x = y} + {x <> y}.
Proof. destruct (N.eq_dec (out x) (out y)) as [E|E]; [left; apply out_eq; exact E|right; congruence]. Defined.

(** ** Lists *)
Lemma repeat_map {A B} (g : A -> B) x n : map g (repeat x n) = repeat (g x) n.
Proof. induction n as [|n IH]; cbn; [reflexivity|]. rewrite IH. reflexivity. Qed.

Section Good.
  Variables (f : Field) (P a : N).
  Hypothesis G : good f P a.
  Let HP := g_P f P a G.
  Let Ha := g_a f P a G.
  Let Inj := g_inj f P a G.
  Let Nz := g_nz f P a G.

  Definition gadd (u v : GF) : GF := inj (N.lxor (out u) (out v)).
  Definition gmul (u v : GF) : GF := inj (Mul f (out u) (out v)).
  Definition g0 := inj 0.
  Definition g1 := inj 1.
  Lemma out_gadd u v : out (gadd u v) = N.lxor (out u) (out v).
  Proof. apply out_inj. apply lxor_small; apply out_lt. Qed.
  Lemma out_gmul u v : out (gmul u v) = Mul f (out u) (out v).
  Proof. apply out_inj. apply (Mul_small f P a G); apply out_lt. Qed.
  Lemma GRT : ring_theory g0 g1 gadd gmul gadd (fun x => x) eq.
  Proof.
    constructor; intros; apply out_eq; rewrite ?out_gadd, ?out_gmul, ?out_gadd, ?out_gmul.
    - reflexivity.
    - apply N.lxor_comm.
    - rewrite N.lxor_assoc. reflexivity.
    - apply (Mul_1_l f P a G). apply out_lt.
    - apply (Mul_comm f P a G); apply out_lt.
    - symmetry. apply (Mul_assoc f P a G); apply out_lt.
    - apply (Mul_lxor_l f P a G); apply out_lt.
    - reflexivity.
    - apply N.lxor_nilpotent.
  Qed.
  Lemma GDom x y : gmul x y = g0 -> x = g0 \/ y = g0.
  Proof.
    intros E. assert (E' : Mul f (out x) (out y) = 0) by (rewrite <- out_gmul, E; reflexivity).
    apply (Mul_eq_0 f P a G) in E'; try apply out_lt. destruct E' as [E'|E']; [left|right]; apply out_eq; exact E'.
  Qed.
  Lemma GOne : g1 <> g0. Proof. intros E. apply (f_equal out) in E. discriminate. Qed.

  Lemma inj_lxor x y : x < 256 -> y < 256 -> inj (N.lxor x y) = gadd (inj x) (inj y).
  Proof. intros. apply out_eq. rewrite out_gadd, !out_inj; auto. apply lxor_small; assumption. Qed.
  Lemma inj_Mul x y : x < 256 -> y < 256 -> inj (Mul f x y) = gmul (inj x) (inj y).
  Proof. intros. apply out_eq. rewrite out_gmul, !out_inj; auto. apply (Mul_small f P a G); assumption. Qed.

  Notation bytes := (Forall byteb).
  Notation ev' := (ev GF g0 g1 gadd gmul).

  Lemma horner_ev p r : bytes p -> r < 256 -> inj (horner (Mul f) p r) = ev' (map inj p) (inj r).
  Proof.
    intros B Hr. rewrite <- (ev_horner GF g0 g1 gadd gmul GRT). unfold horner.
    change g0 with (inj 0). assert (Z0 : 0 < 256) by lia. revert Z0. generalize 0 at 1 2 3.
    induction B as [|c p Hc B IH]; intros acc Hacc; cbn [map fold_left]; [reflexivity|].
    rewrite <- inj_Mul, <- inj_lxor; try assumption; [|apply (Mul_small f P a G); assumption].
    apply IH. apply lxor_small; [apply (Mul_small f P a G); assumption|exact Hc].
  Qed.
  Lemma horner_small p r : bytes p -> r < 256 -> horner (Mul f) p r < 256.
  Proof.
    intros B Hr. unfold horner. assert (Z0 : 0 < 256) by lia. revert Z0. generalize 0.
    induction B as [|c p Hc B IH]; intros acc Hacc; cbn; [exact Hacc|]. apply IH.
    apply lxor_small; [apply (Mul_small f P a G); assumption|exact Hc].
  Qed.

  (** ** The generator *)
  Lemma gen_pass_bytes c p : c < 256 -> bytes p -> bytes (gen_pass f c p).
  Proof.
    intros Hc. induction p as [|x [|y t] IH]; intros B; [constructor| |].
    - inversion B; subst. constructor; [apply (Mul_small f P a G); assumption|constructor].
    - change (gen_pass f c (x :: y :: t)) with (N.lxor (Mul f x c) y :: gen_pass f c (y :: t)).
      inversion B as [|? ? Hx B1]; subst. inversion B1 as [|? ? Hy B2]; subst.
      constructor; [apply lxor_small; [apply (Mul_small f P a G); assumption|assumption]|apply IH; assumption].
  Qed.
  Lemma gen_pass_inj c p : c < 256 -> bytes p -> map inj (gen_pass f c p) = pass GF gadd gmul (inj c) (map inj p).
  Proof.
    intros Hc. induction p as [|x [|y t] IH]; intros B; [reflexivity| |].
    - inversion B; subst. cbn [gen_pass map pass]. rewrite inj_Mul by assumption. reflexivity.
    - inversion B as [|? ? Hx B1]; subst. inversion B1 as [|? ? Hy B2]; subst.
      change (gen_pass f c (x :: y :: t)) with (N.lxor (Mul f x c) y :: gen_pass f c (y :: t)).
      cbn [map]. change (inj x :: inj y :: map inj t) with (inj x :: map inj (y :: t)).
      change (pass GF gadd gmul (inj c) (inj x :: map inj (y :: t))) with
        (gadd (gmul (inj x) (inj c)) (inj y) :: pass GF gadd gmul (inj c) (map inj (y :: t))).
      rewrite IH by assumption. rewrite inj_lxor, inj_Mul; try assumption; [reflexivity|]. apply (Mul_small f P a G); assumption.
  Qed.
  Lemma Exp_small e : Exp f e < 256.
  Proof.
    destruct (Z.leb_spec 0 e) as [H|H]; [rewrite (Exp_pw f P a G) by exact H; apply pw_small; assumption|].
    unfold Exp. destruct (Z.ltb_spec e 0); lia.
  Qed.
  Definition roots (i n : nat) : list N := map (fun k => Exp f (Z.of_nat k)) (seq i n).
  Lemma gen_loop_inj n : forall i p, bytes p ->
    bytes (gen_loop f n i p) /\ map inj (gen_loop f n i p) = passes GF gadd gmul (map inj (roots i n)) (map inj p).
  Proof.
    induction n as [|n IH]; intros i p B; cbn [gen_loop roots seq map passes]; [auto|].
    fold (roots (S i) n). rewrite <- gen_pass_inj; [|apply Exp_small|exact B]. apply IH. apply gen_pass_bytes; [apply Exp_small|exact B].
  Qed.
  Lemma zeros_bytes n : bytes (repeat 0 n).
  Proof. apply Forall_forall. intros x H. apply repeat_spec in H. subst. unfold byteb. lia. Qed.
  Lemma gen_spec e : bytes (gen f e) /\ map inj (gen f e) = gpoly GF g0 g1 gadd gmul (map inj (roots 0 e)).
  Proof.
    unfold gen, gpoly. rewrite map_length. unfold roots at 2. rewrite map_length, seq_length.
    replace (repeat g0 e ++ [g1]) with (map inj (repeat 0 e ++ [1])) by (rewrite map_app, repeat_map; reflexivity).
    apply gen_loop_inj. apply Forall_app. split; [apply zeros_bytes|]. constructor; [unfold byteb; lia|constructor].
  Qed.
  Lemma gen_shape e : exists g, gen f e = 1 :: g /\ length g = e /\ bytes g /\
    forall r, ev' (g1 :: map inj g) r = prod GF g1 gadd gmul (map inj (roots 0 e)) r.
  Proof.
    destruct (gen_spec e) as [B E]. destruct (gpoly_spec GF g0 g1 gadd gmul GRT (map inj (roots 0 e))) as [t [T [L V]]].
    rewrite T in E. destruct (gen f e) as [|x g]; [discriminate|]. cbn [map] in E. injection E as E1 E2.
    inversion B as [|? ? Hx Bg]; subst. exists g. split; [f_equal; apply inj_eq; [exact Hx|lia|apply out_eq; exact E1]|].
    split; [|split; [exact Bg|exact V]].
    unfold roots in L. rewrite !map_length, seq_length in L. exact L.
  Qed.

  (** ** The division *)
  Definition lg_of (x : N) : N := if x =? 0 then 255 else nth (N.to_nat x) (f_log f) 0.
  Lemma lg_255 x : x < 256 -> (lg_of x =? 255) = (x =? 0).
  Proof.
    intros Hx. unfold lg_of. destruct (N.eqb_spec x 0) as [->|Nx]; [reflexivity|].
    destruct (log_of f P a G x ltac:(lia)) as [i [Hi [_ L]]]. rewrite L. apply N.eqb_neq. lia.
  Qed.
  Definition istep (c : N) (g : list N) (q : list N) : list N :=
    ecc_inner (f_exp f) (nth (N.to_nat c) (f_log f) 0) (map lg_of g) q.
  Lemma istep_cons c x g y q : 1 <= c < 256 -> x < 256 -> istep c (x :: g) (y :: q) = N.lxor y (Mul f c x) :: istep c g q.
  Proof.
    intros Hc Hx. unfold istep. cbn [map ecc_inner]. rewrite lg_255 by exact Hx. f_equal.
    unfold Mul, lg_of. destruct (N.eqb_spec c 0); [lia|]. destruct (N.eqb_spec x 0); [rewrite N.lxor_0_r; reflexivity|]. reflexivity.
  Qed.
  Lemma istep_length c g : forall q, length (istep c g q) = length q.
  Proof. unfold istep. induction g as [|x g IH]; intros [|y q]; cbn in *; auto. Qed.
  Lemma istep_bytes c g : 1 <= c < 256 -> bytes g -> forall q, bytes q -> bytes (istep c g q).
  Proof.
    intros Hc Bg. induction Bg as [|x g Hx Bg IH]; intros q Bq; [exact Bq|]. destruct Bq as [|y q Hy Bq]; [constructor|].
    rewrite istep_cons by assumption. constructor; [|apply IH; exact Bq].
    apply lxor_small; [exact Hy|]. apply (Mul_small f P a G); [lia|exact Hx].
  Qed.
  Lemma istep_inj c g : 1 <= c < 256 -> bytes g -> forall q, bytes q ->
    map inj (istep c g q) = inner GF gadd gmul (inj c) (map inj g) (map inj q).
  Proof.
    intros Hc Bg. induction Bg as [|x g Hx Bg IH]; intros q Bq; [reflexivity|]. destruct Bq as [|y q Hy Bq]; [reflexivity|].
    rewrite istep_cons by assumption. cbn [map inner]. rewrite IH by exact Bq.
    rewrite inj_lxor, inj_Mul; try assumption; try lia; [reflexivity|]. apply (Mul_small f P a G); [lia|exact Hx].
  Qed.
  Lemma istep_app c g : forall q r, (length g <= length q)%nat -> istep c g (q ++ r) = istep c g q ++ r.
  Proof.
    unfold istep. induction g as [|x g IH]; intros [|y q] r H; cbn [length map ecc_inner app] in *; try lia; try reflexivity.
    rewrite IH by lia. reflexivity.
  Qed.
  Lemma inner_zero g : forall q, inner GF gadd gmul g0 g q = q.
  Proof.
    induction g as [|x g IH]; intros [|y q]; cbn [inner]; try reflexivity. rewrite IH. f_equal. apply out_eq.
    rewrite out_gadd, out_gmul. change (out g0) with 0. cbn. apply N.lxor_0_r.
  Qed.
  Definition outer (g : list N) (s : nat) (p : list N) : list N := ecc_outer f (map lg_of g) s p.
  Lemma outer_cons g s c q : outer g (S s) (c :: q) = c :: outer g s (if c =? 0 then q else istep c g q).
  Proof. unfold outer. cbn [ecc_outer]. destruct (c =? 0); reflexivity. Qed.
  Lemma outer_length g s : forall p, length (outer g s p) = length p.
  Proof.
    induction s as [|s IH]; intros [|c q]; try reflexivity. rewrite outer_cons. cbn [length]. rewrite IH.
    destruct (c =? 0); [|rewrite istep_length]; reflexivity.
  Qed.
  Lemma outer_bytes g s : bytes g -> forall p, bytes p -> bytes (outer g s p).
  Proof.
    intros Bg. induction s as [|s IH]; intros p B; [exact B|]. destruct B as [|c q Hc B]; [constructor|]. rewrite outer_cons.
    constructor; [exact Hc|]. apply IH. destruct (N.eqb_spec c 0); [exact B|]. unfold byteb in Hc. apply istep_bytes; [lia|exact Bg|exact B].
  Qed.
  Lemma outer_app g s : forall p r, (s + length g <= length p)%nat -> outer g s (p ++ r) = outer g s p ++ r.
  Proof.
    induction s as [|s IH]; intros [|c q] r H; cbn [length] in H; try reflexivity; [lia|].
    cbn [app]. rewrite !outer_cons. cbn [app]. f_equal. destruct (c =? 0).
    - apply IH. lia.
    - rewrite istep_app by lia. apply IH. rewrite istep_length. lia.
  Qed.
  Lemma outer_inj g s : bytes g -> forall p, bytes p ->
    map inj (skipn s (outer g s p)) = divide GF gadd gmul (map inj g) s (map inj p).
  Proof.
    intros Bg. induction s as [|s IH]; intros p B; [destruct p; reflexivity|]. destruct B as [|c q Hc B]; [reflexivity|].
    rewrite outer_cons. cbn [skipn map divide]. rewrite IH.
    - f_equal. destruct (N.eqb_spec c 0) as [->|Nc]; [rewrite inner_zero; reflexivity|]. unfold byteb in Hc. apply istep_inj; [lia|exact Bg|exact B].
    - destruct (N.eqb_spec c 0); [exact B|]. unfold byteb in Hc. apply istep_bytes; [lia|exact Bg|exact B].
  Qed.

  (** ** The remainder *)
  Definition rem (c : nat) (data : list N) : list N :=
    skipn (length data) (outer (tl (gen f c)) (length data) (data ++ repeat 0 c)).
  Lemma tl_lgen c : tl (lgen f c) = map lg_of (tl (gen f c)).
  Proof. unfold lgen. destruct (gen f c); reflexivity. Qed.
  Lemma rem_length c data : length (rem c data) = c.
  Proof. unfold rem. rewrite skipn_length, outer_length, app_length, repeat_length. lia. Qed.
  Lemma rem_bytes c data : bytes data -> bytes (rem c data).
  Proof.
    intros B. unfold rem. destruct (gen_shape c) as [g [E [_ [Bg _]]]]. rewrite E. cbn [tl].
    assert (X : bytes (outer g (length data) (data ++ repeat 0 c))) by (apply outer_bytes; [exact Bg|apply Forall_app; split; [exact B|apply zeros_bytes]]).
    rewrite <- (firstn_skipn (length data)) in X. apply Forall_app in X. apply X.
  Qed.
  Lemma rem_codeword c data j : bytes data -> (j < c)%nat -> horner (Mul f) (data ++ rem c data) (Exp f (Z.of_nat j)) = 0.
  Proof.
    intros B Hj. set (r := Exp f (Z.of_nat j)). assert (Hr : r < 256) by apply Exp_small.
    assert (Br := rem_bytes c data B).
    apply inj_eq; [apply horner_small; [apply Forall_app; auto|exact Hr]|lia|].
    rewrite horner_ev by (auto; apply Forall_app; auto). rewrite map_app, (ev_app GF g0 g1 gadd gmul GRT), map_length, rem_length.
    destruct (gen_shape c) as [g [E [Lg [Bg V]]]].
    assert (Root : ev' (g1 :: map inj g) (inj r) = g0).
    { rewrite V. apply (prod_zero GF g0 g1 gadd gmul GRT GDom GOne). apply in_map. unfold roots. apply in_map_iff.
      exists j. split; [reflexivity|apply in_seq; lia]. }
    unfold rem. rewrite E. cbn [tl]. rewrite outer_inj; [|exact Bg|apply Forall_app; split; [exact B|apply zeros_bytes]].
    rewrite (divide_ev GF g0 g1 gadd gmul GRT); [|exact Root|rewrite !map_length, app_length, repeat_length; lia].
    rewrite map_app, (ev_app GF g0 g1 gadd gmul GRT), repeat_map.
    change (inj 0) with g0. rewrite (ev_repeat GF g0 g1 gadd gmul GRT). rewrite repeat_length.
    apply out_eq. rewrite !out_gadd. change (out g0) with 0. rewrite N.lxor_0_r. apply N.lxor_nilpotent.
  Qed.

  (** ** Divisibility *)
  Lemma padd_length p : forall q, length p = length q -> length (padd p q) = length p.
  Proof. induction p as [|x p IH]; intros [|y q] E; cbn in *; try lia. f_equal. apply IH. lia. Qed.
  Lemma pmul_length q g : g <> [] -> length (pmul (Mul f) q g) = (length q + length g - 1)%nat.
  Proof.
    intros Hg. assert (1 <= length g)%nat by (destruct g; [congruence|cbn; lia]).
    induction q as [|c q IH]; cbn [pmul length]; [rewrite repeat_length; lia|].
    rewrite padd_length; rewrite app_length, map_length, repeat_length; cbn [length]; lia.
  Qed.
  Lemma padd_app p p' q q' : length p = length q -> padd (p ++ p') (q ++ q') = padd p q ++ padd p' q'.
  Proof. revert q. induction p as [|x p IH]; intros [|y q] E; cbn in *; try lia; [reflexivity|]. rewrite IH by lia. reflexivity. Qed.
  Lemma padd_0_r p n : length p = n -> padd p (repeat 0 n) = p.
  Proof. revert n. induction p as [|x p IH]; intros [|n] E; cbn in *; try lia; [reflexivity|]. rewrite N.lxor_0_r, IH by lia. reflexivity. Qed.
  Lemma padd_0_l p n : length p = n -> padd (repeat 0 n) p = p.
  Proof. revert n. induction p as [|x p IH]; intros [|n] E; cbn in *; try lia; [reflexivity|]. rewrite IH by lia. reflexivity. Qed.
  Lemma padd_assoc p : forall q r, padd (padd p q) r = padd p (padd q r).
  Proof. induction p as [|x p IH]; intros [|y q] [|z r]; cbn; try reflexivity. rewrite IH, N.lxor_assoc. reflexivity. Qed.
  Lemma padd_comm p : forall q, padd p q = padd q p.
  Proof. induction p as [|x p IH]; intros [|y q]; cbn; try reflexivity. rewrite IH, N.lxor_comm. reflexivity. Qed.
  Lemma padd_self p : padd p p = repeat 0 (length p).
  Proof. induction p as [|x p IH]; cbn; [reflexivity|]. rewrite IH, N.lxor_nilpotent. reflexivity. Qed.
  Lemma istep_padd c g : 1 <= c < 256 -> bytes g -> forall q, (length g <= length q)%nat ->
    istep c g q = padd (map (Mul f c) g ++ repeat 0 (length q - length g)) q.
  Proof.
    intros Hc Bg. induction Bg as [|x g Hx Bg IH]; intros [|y q] H; cbn [length] in *; try lia.
    - reflexivity.
    - unfold istep. cbn [map ecc_inner app]. rewrite padd_0_l; [reflexivity|cbn; lia].
    - rewrite istep_cons by assumption. cbn [map app padd Nat.sub]. rewrite IH by lia. rewrite N.lxor_comm. reflexivity.
  Qed.
  Lemma outer_quotient g s : bytes g -> forall p, bytes p -> length p = (s + length g)%nat ->
    exists quot, length quot = s /\ bytes quot /\ p = padd (pmul (Mul f) quot (1 :: g)) (repeat 0 s ++ skipn s (outer g s p)).
  Proof.
    intros Bg. induction s as [|s IH]; intros p B L.
    - exists []. split; [reflexivity|]. split; [constructor|]. cbn [pmul repeat app length]. unfold outer.
      rewrite padd_0_l; [destruct p; reflexivity|]. destruct p; cbn [ecc_outer skipn length] in *; lia.
    - destruct B as [|c q Hc B]; [cbn in L; lia|]. cbn [length] in L. unfold byteb in Hc.
      set (q' := if c =? 0 then q else istep c g q).
      assert (Bq' : bytes q') by (unfold q'; destruct (N.eqb_spec c 0); [exact B|apply istep_bytes; [lia|exact Bg|exact B]]).
      assert (Lq' : length q' = length q) by (unfold q'; destruct (c =? 0); [reflexivity|apply istep_length]).
      assert (Eq' : q' = padd (map (Mul f c) g ++ repeat 0 s) q).
      { unfold q'. destruct (N.eqb_spec c 0) as [->|Nc].
        - replace (map (Mul f 0) g) with (repeat 0 (length g)); [rewrite <- repeat_app, padd_0_l by lia; reflexivity|].
          clear. induction g as [|x g IH]; cbn; [reflexivity|]. rewrite <- IH. reflexivity.
        - rewrite istep_padd by (auto; lia). replace (length q - length g)%nat with s by lia. reflexivity. }
      destruct (IH q' Bq' ltac:(lia)) as [quot [Lq [Bquot E]]].
      exists (c :: quot). split; [cbn; lia|]. split; [constructor; assumption|].
      rewrite outer_cons. fold q'. cbn [pmul map app repeat skipn padd]. rewrite N.lxor_0_r, N.lxor_0_r.
      assert (Cm : Mul f c 1 = c) by (rewrite (Mul_comm f P a G) by lia; apply (Mul_1_l f P a G); lia).
      rewrite Cm. f_equal. rewrite padd_assoc, <- E, Eq', Lq, <- padd_assoc, padd_self, padd_0_l; [reflexivity|].
      rewrite app_length, map_length, repeat_length. lia.
  Qed.
  Lemma rem_quotient c data : bytes data ->
    exists quot, length quot = length data /\ bytes quot /\ data ++ rem c data = pmul (Mul f) quot (gen f c).
  Proof.
    intros B. destruct (gen_shape c) as [g [E [Lg [Bg _]]]].
    destruct (outer_quotient g (length data) Bg (data ++ repeat 0 c)) as [quot [L [Bq Q]]].
    - apply Forall_app. split; [exact B|apply zeros_bytes].
    - rewrite app_length, repeat_length. lia.
    - exists quot. split; [exact L|]. split; [exact Bq|]. rewrite E.
      assert (R : rem c data = skipn (length data) (outer g (length data) (data ++ repeat 0 c))) by (unfold rem; rewrite E; reflexivity).
      rewrite <- R in Q.
      assert (Y : padd (data ++ repeat 0 c) (repeat 0 (length data) ++ rem c data) = pmul (Mul f) quot (1 :: g)).
      { rewrite Q, padd_assoc, padd_self, padd_0_r; [reflexivity|].
        rewrite pmul_length by discriminate. rewrite app_length, repeat_length, rem_length. cbn [length]. lia. }
      rewrite <- Y, padd_app by (rewrite repeat_length; reflexivity).
      rewrite padd_0_r by reflexivity. rewrite padd_0_l by apply rem_length. reflexivity.
  Qed.
  (** gen is the product of the x + alpha^i. *)
  Lemma gen_pass_mul c t : c < 256 -> bytes t -> t <> [] -> forall k,
    gen_pass f c (repeat 0 (S k) ++ t) = repeat 0 k ++ pmul (Mul f) [1; c] t.
  Proof.
    intros Hc Bt Nt.
    assert (Base : gen_pass f c (0 :: t) = pmul (Mul f) [1; c] t).
    { cbn [pmul length repeat]. rewrite app_nil_r.
      assert (M1 : map (Mul f 1) t = t).
      { clear Nt. induction Bt as [|x t Hx Bt IH]; cbn [map]; [reflexivity|]. rewrite IH. f_equal. apply (Mul_1_l f P a G). exact Hx. }
      rewrite M1. change (0 :: repeat 0 (length t - 1)) with (repeat 0 (S (length t - 1))). rewrite (padd_0_r (map (Mul f c) t)).
      2:{ rewrite map_length. destruct t; [congruence|cbn; lia]. }
      clear M1. destruct t as [|x t]; [congruence|]. clear Nt.
      change (gen_pass f c (0 :: x :: t)) with (N.lxor 0 x :: gen_pass f c (x :: t)).
      cbn [app padd map]. rewrite N.lxor_0_l, N.lxor_0_r. f_equal.
      revert x Bt. induction t as [|y t IH]; intros x Bt.
      - cbn [gen_pass map app padd]. inversion Bt; subst. rewrite N.lxor_0_l. rewrite (Mul_comm f P a G) by assumption. reflexivity.
      - change (gen_pass f c (x :: y :: t)) with (N.lxor (Mul f x c) y :: gen_pass f c (y :: t)).
        inversion Bt as [|? ? Hx Bt']; subst. rewrite IH by exact Bt'. cbn [map app padd].
        rewrite (Mul_comm f P a G c x) by assumption. rewrite (N.lxor_comm y). reflexivity. }
    intros k. induction k as [|k IH]; [exact Base|].
    change (gen_pass f c (repeat 0 (S (S k)) ++ t)) with (N.lxor (Mul f 0 c) 0 :: gen_pass f c (repeat 0 (S k) ++ t)).
    rewrite IH. reflexivity.
  Qed.
  Lemma padd_bytes p : forall q, bytes p -> bytes q -> bytes (padd p q).
  Proof.
    induction p as [|x p IH]; intros [|y q] B1 B2; cbn; try constructor; inversion B1; inversion B2; subst; auto.
    apply lxor_small; assumption.
  Qed.
  Lemma pmul_bytes q g : bytes q -> bytes g -> bytes (pmul (Mul f) q g).
  Proof.
    intros Bq Bg. induction Bq as [|c q Hc Bq IH]; cbn [pmul]; [apply zeros_bytes|].
    apply padd_bytes; [|constructor; [unfold byteb; lia|exact IH]]. apply Forall_app. split; [|apply zeros_bytes].
    apply Forall_forall. intros x Hx. apply in_map_iff in Hx. destruct Hx as [y [<- Hy]].
    apply (Mul_small f P a G); [exact Hc|]. rewrite Forall_forall in Bg. apply Bg. exact Hy.
  Qed.
  Lemma gen_loop_roots n : forall i t, bytes t -> t <> [] ->
    gen_loop f n i (repeat 0 n ++ t) = fold_left (fun acc r => pmul (Mul f) [1; r] acc) (roots i n) t.
  Proof.
    induction n as [|n IH]; intros i t Bt Nt; [reflexivity|]. unfold roots. cbn [seq map fold_left gen_loop]. fold (roots (S i) n).
    rewrite gen_pass_mul by (try apply Exp_small; assumption). apply IH.
    - apply pmul_bytes; [|exact Bt]. constructor; [unfold byteb; lia|]. constructor; [apply Exp_small|constructor].
    - intros E. apply (f_equal (@length N)) in E. rewrite pmul_length in E by exact Nt. destruct t; [congruence|cbn in E; lia].
  Qed.
  Lemma gen_roots c : gen f c = from_roots (Mul f) (roots 0 c).
  Proof. unfold gen, from_roots. apply gen_loop_roots; [constructor; [unfold byteb; lia|constructor]|discriminate]. Qed.

  (** ** Distance *)
  Lemma kpow_pw i : kpow GF g1 gmul (inj a) i = inj (pw P a i).
  Proof.
    induction i as [|i IH]; [reflexivity|]. cbn [kpow pw]. rewrite IH. apply out_eq.
    rewrite out_gmul, !out_inj; try assumption; try (apply pw_small; assumption); [|apply mul_ok; assumption].
    rewrite (Mul_mul f P a G) by (try assumption; apply pw_small; assumption).
    apply mul_comm; try assumption. apply pw_small; assumption.
  Qed.
  Lemma weight_hamming x : forall y, length x = length y -> bytes x -> bytes y ->
    weight GF g0 gf_dec (zip GF gadd (map inj x) (map inj y)) = hamming x y.
  Proof.
    induction x as [|b x IH]; intros [|c y] L Bx By; cbn [length] in L; try lia; [reflexivity|].
    inversion Bx as [|? ? Hb Bx']; subst. inversion By as [|? ? Hc By']; subst.
    specialize (IH y ltac:(lia) Bx' By'). unfold weight in *. cbn [map zip filter hamming].
    unfold nz at 1. destruct (gf_dec (gadd (inj b) (inj c)) g0) as [E|E].
    - apply (f_equal out) in E. rewrite out_gadd, !out_inj in E by assumption. apply N.lxor_eq in E. subst c.
      rewrite N.eqb_refl, IH. reflexivity.
    - destruct (N.eqb_spec b c) as [->|Nbc]; [|cbn [length]; rewrite IH; reflexivity].
      exfalso. apply E. apply out_eq. rewrite out_gadd. apply N.lxor_nilpotent.
  Qed.
  Lemma hamming_zero_eq x : forall y, length x = length y -> hamming x y = 0%nat -> x = y.
  Proof.
    induction x as [|b x IH]; intros [|c y] L H; cbn in *; try lia; [reflexivity|].
    destruct (N.eqb_spec b c) as [->|]; [|lia]. f_equal. apply IH; lia.
  Qed.
  Lemma codewords_far c x y : length x = length y -> (length x <= 255)%nat -> bytes x -> bytes y ->
    (forall j, (j < c)%nat -> horner (Mul f) x (Exp f (Z.of_nat j)) = 0) ->
    (forall j, (j < c)%nat -> horner (Mul f) y (Exp f (Z.of_nat j)) = 0) ->
    x <> y -> (c < hamming x y)%nat.
  Proof.
    intros L L2 Bx By Hx Hy Ne. rewrite <- weight_hamming by assumption.
    destruct (rs_distance GF g0 g1 gadd gmul GRT GDom gf_dec GOne (inj a) 255 c (zip GF gadd (map inj x) (map inj y))) as [E|E].
    - intros i j Hi Hj E. rewrite !kpow_pw in E. apply Inj; try assumption. apply inj_eq; try (apply pw_small; assumption). exact E.
    - rewrite zip_length; rewrite !map_length; lia.
    - intros j Hj. rewrite (ev_zip GF g0 g1 gadd gmul GRT) by (rewrite !map_length; exact L).
      assert (Er : kpow GF g1 gmul (inj a) j = inj (Exp f (Z.of_nat j))).
      { rewrite kpow_pw, (Exp_pw f P a G) by lia. rewrite Nat2Z.id. reflexivity. }
      rewrite Er, <- !horner_ev by (try assumption; apply Exp_small). rewrite Hx, Hy by exact Hj.
      apply out_eq. rewrite out_gadd. reflexivity.
    - rewrite weight_hamming in E by assumption. exfalso. apply Ne. apply hamming_zero_eq; assumption.
    - exact E.
  Qed.

  (** ** ECC *)
  Definition enc_ok (c : nat) (rs : RSEncoder) : Prop := rs_f rs = f /\ rs_c rs = c /\ rs_lgen rs = lgen f c.
  Lemma ECC_spec c rs data check : enc_ok c rs ->
    if (length check <? c)%nat then ECC rs data check = None
    else exists rs' k, enc_ok c rs' /\ ECC rs data check = Some (copy check (if Nat.eqb c 0 then [] else rem c data ++ repeat 0 k), rs').
  Proof.
    intros [Ef [Ec El]]. unfold ECC. rewrite Ec. destruct (length check <? c)%nat; [reflexivity|].
    destruct (Nat.eqb_spec c 0) as [->|Nc].
    - exists rs, 0%nat. split; [repeat split; assumption|]. cbn [Nat.eqb]. unfold copy. rewrite firstn_nil. reflexivity.
    - set (p0 := if (length data + c <=? length (rs_p rs))%nat then rs_p rs else repeat 0 (length data + c)).
      assert (L0 : (length data + c <= length p0)%nat).
      { unfold p0. destruct (Nat.leb_spec (length data + c) (length (rs_p rs))); [assumption|]. rewrite repeat_length. lia. }
      eexists _, (length p0 - (length data + c))%nat. split; [|f_equal; f_equal; f_equal].
      + repeat split; cbn; assumption.
      + rewrite Ef, El, tl_lgen. unfold rem.
        replace (length p0 - length data)%nat with (c + (length p0 - (length data + c)))%nat at 1 by lia.
        rewrite repeat_app, app_assoc.
        destruct (gen_shape c) as [g [E [Lg _]]]. rewrite E. cbn [tl]. fold (outer g (length data)).
        change (ecc_outer f (map lg_of g) (length data)) with (outer g (length data)).
        rewrite outer_app by (rewrite app_length, repeat_length; lia).
        rewrite skipn_app. f_equal. rewrite outer_length, app_length, repeat_length.
        replace (length data - (length data + c))%nat with 0%nat by lia. reflexivity.
  Qed.
End Good.
