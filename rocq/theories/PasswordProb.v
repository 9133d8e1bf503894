(** * Almost every random stream makes Generate return (for C82).

    From every point of a call that can be reached, some B bytes make it finish; so of all streams of
    m*B bytes at most (256^B-1)^m leave it unfinished. *)
From Coq Require Import ZArith Arith List Bool Lia.
From Verif Require Import PasswordModel PasswordProofs PasswordSpec PasswordCount PasswordUniform PasswordUniform2 PasswordConc PasswordConcProofs.
Import ListNotations.
Open Scope Z_scope.

(** ** Bytes for a given draw *)
Lemma encode k : forall p, 0 <= p < 256 ^ Z.of_nat k -> exists bs, bytes bs /\ length bs = k /\ big_endian bs = p.
Proof.
  induction k as [|k IH]; intros p H.
  - exists []. split; [constructor|]. split; [reflexivity|]. cbn in *. lia.
  - rewrite Nat2Z.inj_succ, Z.pow_succ_r in H by lia. set (q := 256 ^ Z.of_nat k) in *.
    assert (Q : 0 < q) by (apply Z.pow_pos_nonneg; lia).
    destruct (IH (p mod q) (Z.mod_pos_bound _ _ Q)) as [bs [B [L E]]].
    exists (p / q :: bs). split; [|split].
    + constructor; [|exact B]. split; [apply Z.div_pos; lia|apply Z.div_lt_upper_bound; lia].
    + cbn. congruence.
    + rewrite big_endian_cons, L, E. fold q. pose proof (Z.div_mod p q). lia.
Qed.
Lemma hit_bytes s max k b mx p : ask s max = Bytes k b mx -> 0 <= p < max ->
  exists bs, bytes bs /\ length bs = k /\ big_endian (mask_first b bs) = p.
Proof.
  unfold ask. destruct (Z.leb_spec max 0) as [|Hm]; [discriminate|]. set (bl := bit_len (max - 1)).
  destruct (Z.eqb_spec bl 0) as [|Nb]; [discriminate|]. intros E Hp. injection E as Ek Eb _.
  assert (Hbl : 0 < bl /\ max <= 2 ^ bl).
  { unfold bl, bit_len in *. destruct (Z.leb_spec (max - 1) 0); [lia|]. pose proof (Z.log2_nonneg (max - 1)).
    pose proof (Z.log2_spec (max - 1) ltac:(lia)) as LS. change (Z.succ (Z.log2 (max - 1))) with (Z.log2 (max - 1) + 1) in LS. lia. }
  destruct Hbl as [Hbl Hm2].
  assert (Hb : 1 <= b <= 8 /\ (bl + 7) / 8 = (bl - b) / 8 + 1 /\ bl = b + 8 * ((bl - b) / 8) /\ 0 <= (bl - b) / 8).
  { rewrite <- Eb. pose proof (Z.div_mod bl 8 ltac:(lia)) as DM. pose proof (Z.mod_pos_bound bl 8 ltac:(lia)).
    destruct (Z.eqb_spec (bl mod 8) 0) as [E|E].
    - replace (bl - 8) with ((bl / 8 - 1) * 8) by lia. rewrite Z.div_mul by lia.
      replace (bl + 7) with (7 + (bl / 8) * 8) by lia. rewrite Z.div_add by lia. change (7 / 8) with 0. lia.
    - replace (bl - bl mod 8) with ((bl / 8) * 8) by lia. rewrite Z.div_mul by lia.
      replace (bl + 7) with ((7 + bl mod 8) + (bl / 8) * 8) by lia. rewrite Z.div_add by lia.
      replace ((7 + bl mod 8) / 8) with 1 by (apply Z.div_unique with (r := bl mod 8 - 1); lia). lia. }
  destruct Hb as [Hb [Hk [Hbl2 Hq]]]. set (j := Z.to_nat ((bl - b) / 8)).
  assert (Ekj : k = S j) by (unfold j; rewrite <- Ek, Hk; lia).
  assert (P2 : 2 ^ bl = 2 ^ b * 256 ^ Z.of_nat j).
  { rewrite Hbl2 at 1. rewrite Z.pow_add_r by lia. f_equal. rewrite Z.pow_mul_r by lia. change (2 ^ 8) with 256. f_equal. unfold j. lia. }
  set (q := 256 ^ Z.of_nat j) in *. assert (Q : 0 < q) by (apply Z.pow_pos_nonneg; lia).
  destruct (encode j (p mod q) (Z.mod_pos_bound _ _ Q)) as [bs [B [L EB]]].
  assert (X : 0 <= p / q < 2 ^ b) by (split; [apply Z.div_pos; lia|apply Z.div_lt_upper_bound; lia]).
  assert (2 ^ b <= 2 ^ 8) by (apply Z.pow_le_mono_r; lia). change (2 ^ 8) with 256 in *.
  exists (p / q :: bs). split; [constructor; [lia|exact B]|]. split; [cbn; lia|].
  cbn [mask_first]. replace (2 ^ b - 1) with (Z.ones b) by (rewrite Z.ones_equiv; lia).
  rewrite Z.land_ones, Z.mod_small by lia. rewrite big_endian_cons, L, EB. fold q. pose proof (Z.div_mod p q). lia.
Qed.
Lemma fed_bound b bs : bytes bs -> 0 <= b <= 8 -> 0 <= big_endian (mask_first b bs).
Proof. intros B Hb. apply big_endian_bound, mask_first_bytes; assumption. Qed.
Lemma ask_b s max k b mx : ask s max = Bytes k b mx -> 0 <= b <= 8 /\ 2 <= max /\ (Z.of_nat k < max)%Z.
Proof.
  unfold ask. destruct (Z.leb_spec max 0) as [|Hm]; [discriminate|]. set (bl := bit_len (max - 1)).
  destruct (Z.eqb_spec bl 0) as [|Nb]; [discriminate|]. intros E. injection E as Ek Eb _.
  assert (H : 2 <= max /\ 0 < bl < max).
  { unfold bl, bit_len in *. destruct (Z.leb_spec (max - 1) 0); [lia|]. pose proof (Z.log2_nonneg (max - 1)). pose proof (Z.log2_lt_lin (max - 1)). lia. }
  split; [|split; [lia|]].
  - rewrite <- Eb. pose proof (Z.mod_pos_bound bl 8). destruct (_ =? 0); lia.
  - assert ((bl + 7) / 8 <= bl) by (apply Z.div_le_upper_bound; lia). assert (0 <= (bl + 7) / 8) by (apply Z.div_pos; lia). lia.
Qed.

(** ** The points of a call whose sets leave room *)
Fixpoint total_todo (next : list (nat * list Z)) : nat := match next with [] => 0 | (t, _) :: n => t + total_todo n end.
Definition room (M : nat) (ar : bool) (next : list (nat * list Z)) (res : list Z) : Prop :=
  (length res + total_todo next <= M)%nat /\
  Forall (fun p => snd p <> [] /\ ascii (snd p) /\ NoDup (snd p) /\ (length (snd p) <= M)%nat /\ (ar = false -> (fst p + hits (snd p) res <= length (snd p))%nat)) next /\
  ForallOrdPairs (fun p q => disjoint (snd p) (snd q)) next.
Definition fair (M : nat) (s : state) : Prop :=
  match s with
  | Finished o => exists w, o = Password w
  | Element ar t set next res => room M ar ((S t, set) :: next) res
  | Insert ar ch t set next res => room M ar ((S t, set) :: next) res /\ exists x, ch = [x] /\ In x set /\ (ar = false -> memb x res = false)
  end.
Definition left (s : state) : nat :=
  match s with
  | Finished _ => 0
  | Element _ t _ next _ => 2 * S (t + total_todo next)
  | Insert _ _ t _ next _ => S (2 * (t + total_todo next))
  end.
Lemma loops_fair M ar : forall next res, room M ar next res -> fair M (loops ar next res) /\ left (loops ar next res) = (2 * total_todo next)%nat.
Proof.
  induction next as [|[t set] n IH]; intros res R; cbn [loops total_todo].
  - split; [exists res; reflexivity|reflexivity].
  - destruct t as [|t].
    + apply IH. destruct R as [R1 [R2 R3]]. inversion R2; inversion R3; subst. split; [exact R1|]. split; assumption.
    + split; [exact R|]. cbn [left]. lia.
Qed.
Lemma hits_insert_other set res i x : ~ In x set -> hits set (insert_at i x res) = hits set res.
Proof.
  intros N. unfold hits. f_equal. apply filter_ext_in. intros y Hy. rewrite memb_insert. destruct (Z.eqb_spec y x) as [->|]; [contradiction|reflexivity].
Qed.
Lemma room_insert M ar t set next res x i : room M ar ((S t, set) :: next) res -> In x set -> (ar = false -> memb x res = false) ->
  room M ar ((t, set) :: next) (insert_at i x res).
Proof.
  intros [R1 [R2 R3]] I N. inversion R2 as [|? ? [A [B [C [L D]]]] R2']; inversion R3 as [|? ? P R3']; subst. cbn [fst snd] in *.
  split; [rewrite insert_length; cbn [total_todo] in *; lia|]. split.
  - constructor; cbn [fst snd].
    + repeat (split; [assumption|]). intros F. specialize (D F). rewrite hits_insert by auto. lia.
    + rewrite Forall_forall in *. intros p Hp. destruct (R2' p Hp) as [A' [B' [C' [L' D']]]]. repeat (split; [assumption|]).
      intros F. rewrite hits_insert_other; [exact (D' F)|]. intros H. apply (P p Hp x I H).
  - constructor; [|exact R3']. rewrite Forall_forall in *. intros p Hp. apply (P p Hp).
Qed.
Lemma draw_Element M ar t set next res n : fair M (Element ar t set next res) -> (n < length set)%nat ->
  let s' := drawn (Element ar t set next res) n in
  fair M s' /\ (s' = Element ar t set next res \/ (left s' < left (Element ar t set next res))%nat) /\
  ((ar = false -> memb (nth n set 0) res = false) -> (left s' < left (Element ar t set next res))%nat).
Proof.
  intros F Hn. cbv zeta. cbn [drawn]. pose proof F as F0. destruct F as [R1 [R2 R3]]. inversion R2 as [|? ? [A [B [C [L D]]]] R2']; subst. cbn [fst snd] in *.
  assert (I : In (nth n set 0) set) by (apply nth_In; exact Hn).
  assert (S1 : string_of_byte (nth n set 0) = [nth n set 0]).
  { apply string_of_byte_ascii. unfold ascii in B. rewrite Forall_forall in B. exact (B _ I). }
  rewrite S1, contains_memb. destruct (negb ar && memb (nth n set 0) res) eqn:E.
  - split; [exact F0|]. split; [left; reflexivity|]. intros H. apply andb_true_iff in E. destruct E as [E1 E2]. destruct ar; [discriminate|]. rewrite H in E2 by reflexivity. discriminate.
  - assert (LT : (left (Insert ar [nth n set 0%Z] t set next res) < left (Element ar t set next res))%nat) by (cbn [left]; lia).
    split; [|split; [right; exact LT|intros _; exact LT]]. split; [exact F0|]. exists (nth n set 0). split; [reflexivity|]. split; [exact I|]. intros ->. exact E.
Qed.
Lemma draw_Insert M ar ch t set next res n : fair M (Insert ar ch t set next res) ->
  fair M (loops ar ((t, set) :: next) (firstn n res ++ ch ++ skipn n res)) /\
  (left (loops ar ((t, set) :: next) (firstn n res ++ ch ++ skipn n res)) < left (Insert ar ch t set next res))%nat.
Proof.
  intros [R [x [-> [I N]]]]. change (firstn n res ++ [x] ++ skipn n res) with (insert_at n x res).
  destruct (loops_fair M ar ((t, set) :: next) (insert_at n x res) (room_insert _ _ _ _ _ _ _ _ R I N)) as [F E]. split; [exact F|]. rewrite E. cbn [left total_todo]. lia.
Qed.
Lemma fair_silent M s s' : fair M s -> wants s = Silent s' -> fair M s' /\ (left s' < left s)%nat.
Proof.
  destruct s as [o|ar t set next res|ar ch t set next res]; cbn [wants]; intros F W; [discriminate| |].
  - pose proof F as F0. destruct F as [_ [R2 _]]. inversion R2 as [|? ? [A [B [C [L D]]]] R2']; subst. cbn [fst snd] in *.
    unfold ask in W. destruct (Z.leb_spec (Z.of_nat (length set)) 0); [destruct set; [congruence|cbn in *; lia]|].
    destruct (Z.eqb_spec (bit_len (Z.of_nat (length set) - 1)) 0) as [E|]; [|discriminate]. injection W as <-.
    assert (L1 : length set = 1%nat).
    { destruct (Z.leb_spec (Z.of_nat (length set) - 1) 0); [lia|]. pose proof (bit_len_pos (Z.of_nat (length set) - 1)). lia. }
    destruct (draw_Element M ar t set next res 0 F0 ltac:(lia)) as [F1 [_ LT]]. split; [exact F1|]. apply LT. intros Ar. specialize (D Ar).
    destruct set as [|x [|y set]]; try discriminate L1. cbn [nth]. unfold hits in D. cbn in D. destruct (memb x res); [cbn in D; lia|reflexivity].
  - destruct res as [|x res].
    + injection W as <-. apply (draw_Insert M ar ch t set next [] 0) in F. cbn [firstn skipn app] in F. rewrite app_nil_r in F. exact F.
    + unfold ask in W. destruct (Z.leb_spec (Z.of_nat (length (x :: res)) + 1) 0); [lia|].
      destruct (Z.eqb_spec (bit_len (Z.of_nat (length (x :: res)) + 1 - 1)) 0) as [E|]; [|discriminate].
      pose proof (bit_len_pos (Z.of_nat (length (x :: res)) + 1 - 1)). cbn [length] in *. lia.
Qed.
Lemma fair_fed M s k b max bs : fair M s -> wants s = Bytes k b max -> bytes bs -> fair M (fed s b max bs) /\ (fed s b max bs = s \/ (left (fed s b max bs) < left s)%nat).
Proof.
  intros F W B. unfold fed. destruct (Z.ltb_spec (big_endian (mask_first b bs)) max) as [Lt|]; [|split; [exact F|left; reflexivity]].
  destruct s as [o|ar t set next res|ar ch t set next res]; cbn [wants] in W; [discriminate| |].
  - destruct (ask_b _ _ _ _ _ W) as [Hb _]. pose proof (fed_bound b bs B Hb).
    destruct (ask_bytes _ _ _ _ _ (repeat 0 k) [] W (repeat_length _ _)) as [-> _].
    destruct (draw_Element M ar t set next res (Z.to_nat (big_endian (mask_first b bs))) F ltac:(lia)) as [F1 [O _]]. split; assumption.
  - destruct res as [|x res]; [discriminate|]. destruct (draw_Insert M ar ch t set next (x :: res) (Z.to_nat (big_endian (mask_first b bs))) F) as [F1 LT].
    split; [exact F1|right; exact LT].
Qed.
Lemma fair_good M s k b max : fair M s -> wants s = Bytes k b max -> (k <= M)%nat /\ exists bs, bytes bs /\ length bs = k /\ (left (fed s b max bs) < left s)%nat.
Proof.
  intros F W. destruct s as [o|ar t set next res|ar ch t set next res]; cbn [wants] in W; [discriminate| |].
  - pose proof F as F0. destruct F as [_ [R2 _]]. inversion R2 as [|? ? [A [B [C [L D]]]] R2']; subst. cbn [fst snd] in *.
    destruct (ask_b _ _ _ _ _ W) as [Hb [_ Hk]]. split; [lia|].
    assert (X : exists n, (n < length set)%nat /\ (ar = false -> memb (nth n set 0) res = false)).
    { destruct ar; [exists 0%nat; split; [destruct set; [congruence|cbn; lia]|discriminate]|]. specialize (D eq_refl).
      destruct (existsb (fun x => negb (memb x res)) set) eqn:E.
      - apply existsb_exists in E. destruct E as [x [Hx Ex]]. apply (In_nth _ _ 0) in Hx. destruct Hx as [n [Hn En]]. exists n. split; [exact Hn|]. intros _. rewrite En. destruct (memb x res); [discriminate|reflexivity].
      - exfalso. unfold hits in D. rewrite filter_const_true in D; [lia|]. intros x Hx. destruct (memb x res) eqn:Em; [reflexivity|].
        assert (Y : existsb (fun x => negb (memb x res)) set = true) by (apply existsb_exists; exists x; split; [exact Hx|rewrite Em; reflexivity]). congruence. }
    destruct X as [n [Hn Un]].
    destruct (ask_bytes _ _ _ _ _ (repeat 0 k) [] W (repeat_length _ _)) as [-> _].
    destruct (hit_bytes _ _ _ _ _ (Z.of_nat n) W ltac:(lia)) as [bs [Bb [Lb Eb]]]. exists bs. split; [exact Bb|]. split; [exact Lb|].
    unfold fed. rewrite Eb. destruct (Z.ltb_spec (Z.of_nat n) (Z.of_nat (length set))); [|lia]. rewrite Nat2Z.id.
    destruct (draw_Element M ar t set next res n F0 Hn) as [_ [_ LT]]. apply LT, Un.
  - destruct res as [|x res]; [discriminate|]. destruct (ask_b _ _ _ _ _ W) as [Hb [_ Hk]]. pose proof F as [[R1 _] _]. cbn [total_todo] in R1. split; [lia|].
    destruct (ask_bytes _ _ _ _ _ (repeat 0 k) [] W (repeat_length _ _)) as [-> _].
    destruct (hit_bytes _ _ _ _ _ 0 W ltac:(lia)) as [bs [Bb [Lb Eb]]]. exists bs. split; [exact Bb|]. split; [exact Lb|].
    unfold fed. rewrite Eb. destruct (Z.ltb_spec 0 (Z.of_nat (length (x :: res)) + 1)); [|lia]. apply (draw_Insert M ar ch t set next (x :: res) (Z.to_nat 0) F).
Qed.

(** ** Runs *)
Definition ready (M : nat) (t : thread) : Prop := waits_well t /\ bytes (part t) /\ fair M (at_ t).
Definition succeeds (t : thread) (s : list Z) : Prop := exists rest t' m w, runs s t rest t' m /\ at_ t' = Finished (Password w).
Lemma succeeds_app t s tl : succeeds t s -> succeeds t (s ++ tl).
Proof. intros [rest [t' [m [w [R F]]]]]. exists (rest ++ tl), t', m, w. split; [apply runs_app, R|exact F]. Qed.
Lemma succeeds_runs s t rest t' m : runs s t rest t' m -> succeeds t' rest -> succeeds t s.
Proof. intros R [r2 [t2 [m2 [w [R2 F]]]]]. exists r2, t2, (m + m2)%nat, w. split; [eapply runs_trans; eassumption|exact F]. Qed.
Lemma ready_turn M rng t rng' t' : ready M t -> bytes rng -> turn rng t = Some (rng', t') -> ready M t' /\ bytes rng' /\ (left (at_ t') <= left (at_ t))%nat /\
  (rng' = rng /\ (left (at_ t') < left (at_ t))%nat \/ length rng = S (length rng')).
Proof.
  intros [W [B F]] Br E. pose proof (turn_act _ _ _ _ W E) as [_ W']. revert E W'. unfold turn. destruct (wants (at_ t)) as [|s'|k b max] eqn:Ws; [discriminate| |].
  - intros E W'. injection E as <- <-. destruct (fair_silent M _ _ F Ws) as [F' L]. cbn [at_ part] in *. unfold ready. cbn [at_ part].
    split; [split; [exact W'|split; [exact B|exact F']]|]. split; [exact Br|]. split; [lia|]. left. split; [reflexivity|exact L].
  - destruct rng as [|x rng]; [discriminate|]. intros E W'. injection E as <- <-. inversion Br as [|? ? Bx Br']; subst.
    assert (Bp : bytes (part t ++ [x])) by (apply Forall_app; split; [exact B|constructor; [exact Bx|constructor]]).
    unfold ready, receive in *. destruct (length (part t ++ [x]) <? k)%nat; cbn [at_ part] in *.
    + split; [split; [exact W'|split; [exact Bp|exact F]]|]. split; [exact Br'|]. split; [lia|]. right. reflexivity.
    + destruct (fair_fed M _ _ _ _ _ F Ws Bp) as [F' O]. split; [split; [exact W'|split; [constructor|exact F']]|]. split; [exact Br'|].
      split; [destruct O as [->|]; lia|right; reflexivity].
Qed.
Lemma fair_Stop M s : fair M s -> wants s = Stop -> exists w, s = Finished (Password w).
Proof.
  destruct s as [o|ar t set next res|ar ch t set next res]; cbn [wants fair].
  - intros [w ->] _. exists w. reflexivity.
  - unfold ask. destruct (_ <=? 0); [discriminate|]. destruct (_ =? 0); discriminate.
  - destruct res; [discriminate|]. unfold ask. destruct (_ <=? 0); [discriminate|]. destruct (_ =? 0); discriminate.
Qed.
(** A call goes on until it has finished or the bytes are used up. *)
Lemma exhaust M : forall n t u, (length u + left (at_ t) <= n)%nat -> ready M t -> bytes u ->
  succeeds t u \/ exists t' m, runs u t [] t' m /\ ready M t' /\ (left (at_ t') <= left (at_ t))%nat.
Proof.
  induction n as [|n IH]; intros t u L R B.
  - right. exists t, 0%nat. destruct u; [|cbn in L; lia]. split; [apply runs_end|]. split; [exact R|lia].
  - destruct (turn u t) as [[u' t']|] eqn:E.
    + destruct (ready_turn M _ _ _ _ R B E) as [R' [B' [Le D]]].
      assert (L' : (length u' + left (at_ t') <= n)%nat) by (destruct D as [[-> D]|D]; lia).
      destruct (IH t' u' L' R' B') as [Su|[t2 [m [Ru [R2 L2]]]]].
      * left. eapply succeeds_runs; [|exact Su]. eapply runs_turn; [exact E|apply runs_end].
      * right. exists t2, (S m). split; [eapply runs_turn; eassumption|]. split; [exact R2|lia].
    + unfold turn in E. destruct (wants (at_ t)) as [|s'|k b max] eqn:Ws; [|discriminate|].
      * left. destruct (fair_Stop M _ (proj2 (proj2 R)) Ws) as [w Ew]. exists u, t, 0%nat, w. split; [apply runs_end|exact Ew].
      * destruct u; [|discriminate]. right. exists t, 0%nat. split; [apply runs_end|]. split; [exact R|lia].
Qed.
(** From every point some bytes lead to the end. *)
Lemma hope M : forall n t, (left (at_ t) <= n)%nat -> ready M t -> exists u, bytes u /\ (length u <= 2 * M * n)%nat /\ succeeds t u.
Proof.
  induction n as [n IH] using lt_wf_ind. intros t L [W [B F]].
  destruct (wants (at_ t)) as [|s'|k b max] eqn:Ws.
  - exists []. split; [constructor|]. split; [cbn; lia|]. destruct (fair_Stop M _ F Ws) as [w Ew]. exists [], t, 0%nat, w. split; [apply runs_end|exact Ew].
  - destruct (fair_silent M _ _ F Ws) as [F' L']. destruct (IH (n - 1)%nat ltac:(lia) {| at_ := s'; part := part t; got := got t |} ltac:(cbn; lia)) as [u [Bu [Lu Su]]].
    + unfold waits_well in W. rewrite Ws in W. rewrite W. split; [apply fresh_well|]. split; [constructor|exact F'].
    + exists u. split; [exact Bu|]. split; [nia|]. eapply succeeds_runs; [|exact Su]. eapply runs_turn; [unfold turn; rewrite Ws; reflexivity|apply runs_end].
  - unfold waits_well in W. rewrite Ws in W. destruct (fair_good M _ _ _ _ F Ws) as [Hk [gb [Bg [Lg Gg]]]].
    set (z := repeat 0 (k - length (part t))).
    assert (Bz : bytes z) by (apply Forall_forall; intros x Hx; apply repeat_spec in Hx; subst; lia).
    assert (Lz : length z = (k - length (part t))%nat) by apply repeat_length.
    assert (Bp : bytes (part t ++ z)) by (apply Forall_app; split; assumption).
    assert (R1 : runs (z ++ []) t [] {| at_ := fed (at_ t) b max (part t ++ z); part := []; got := got t ++ z |} (length z)).
    { pose proof (read_runs (at_ t) k b max Ws z (part t) (got t) [] ltac:(intros Q; rewrite Q in Lz; cbn in Lz; lia) ltac:(lia)) as Q. destruct t; exact Q. }
    destruct (fair_fed M _ _ _ _ _ F Ws Bp) as [F1 [Same|Less]].
    + rewrite Same in R1.
      assert (R2 : runs (gb ++ []) {| at_ := at_ t; part := []; got := got t ++ z |} [] {| at_ := fed (at_ t) b max gb; part := []; got := (got t ++ z) ++ gb |} (length gb)).
      { apply (read_runs (at_ t) k b max Ws gb [] (got t ++ z) []); [|exact Lg]. intros Q. rewrite Q in Lg. cbn in Lg. lia. }
      destruct (IH (n - 1)%nat ltac:(lia) {| at_ := fed (at_ t) b max gb; part := []; got := (got t ++ z) ++ gb |} ltac:(cbn [at_]; lia)) as [u [Bu [Lu Su]]].
      { split; [apply fresh_well|]. split; [constructor|]. apply (fair_fed M _ _ _ _ _ F Ws Bg). }
      exists (z ++ gb ++ u). split; [apply Forall_app; split; [exact Bz|apply Forall_app; split; assumption]|]. split; [rewrite !app_length; nia|].
      rewrite app_nil_r in R1, R2. eapply succeeds_runs; [exact (runs_app (gb ++ u) _ _ _ _ _ R1)|]. eapply succeeds_runs; [exact (runs_app u _ _ _ _ _ R2)|exact Su].
    + destruct (IH (n - 1)%nat ltac:(lia) {| at_ := fed (at_ t) b max (part t ++ z); part := []; got := got t ++ z |} ltac:(cbn [at_]; lia)) as [u [Bu [Lu Su]]].
      { split; [apply fresh_well|]. split; [constructor|exact F1]. }
      exists (z ++ u). split; [apply Forall_app; split; assumption|]. split; [rewrite !app_length; nia|].
      rewrite app_nil_r in R1. eapply succeeds_runs; [exact (runs_app u _ _ _ _ _ R1)|exact Su].
Qed.

(** ** Counting *)
Open Scope nat_scope.
Lemma all_bytes_count k : length (all_bytes k) = 256 ^ k.
Proof.
  induction k as [|k IH]; [reflexivity|]. rewrite all_bytes_S, Nat.pow_succ_r'. rewrite <- IH. clear IH.
  assert (L : length byte_vals = 256) by (unfold byte_vals; rewrite map_length, seq_length; reflexivity). rewrite <- L. clear L.
  induction byte_vals as [|x l IHl]; [reflexivity|]. cbn [flat_map length]. rewrite app_length, map_length, IHl. reflexivity.
Qed.
Lemma all_bytes_NoDup k : NoDup (all_bytes k).
Proof.
  induction k as [|k IH]; [constructor; [intros []|constructor]|]. rewrite all_bytes_S.
  assert (Nb : NoDup byte_vals). { unfold byte_vals. apply FinFun.Injective_map_NoDup; [intros a b H; lia|apply seq_NoDup]. }
  induction Nb as [|x l Hx Nl IHl]; [constructor|]. cbn [flat_map].
  assert (Q : forall y, In y (map (fun s => x :: s) (all_bytes k)) -> In y (flat_map (fun x0 => map (fun l0 => x0 :: l0) (all_bytes k)) l) -> False).
  { intros y H1 H2. apply in_map_iff in H1. destruct H1 as [s [<- _]]. apply in_flat_map in H2. destruct H2 as [x' [H3 H4]]. apply in_map_iff in H4. destruct H4 as [s' [E _]]. injection E as -> _. contradiction. }
  assert (N1 : NoDup (map (fun s => x :: s) (all_bytes k))) by (apply FinFun.Injective_map_NoDup; [intros a b H; injection H as ->; reflexivity|exact IH]).
  revert N1 Q. generalize (map (fun s => x :: s) (all_bytes k)). intros l1 N1. induction N1 as [|y l1 Hy N1 IH1]; intros Q; [exact IHl|]. cbn [app]. constructor.
  - intros H. apply in_app_or in H. destruct H as [H|H]; [contradiction|]. apply (Q y); [left; reflexivity|exact H].
  - apply IH1. intros z H1 H2. apply (Q z); [right; exact H1|exact H2].
Qed.
Lemma all_bytes_bytes k s : In s (all_bytes k) -> bytes s.
Proof. intros H. apply all_bytes_iff. rewrite (all_bytes_length _ _ H). exact H. Qed.
Lemma all_bytes_split a b s : In s (all_bytes (a + b)) -> exists u v, s = u ++ v /\ In u (all_bytes a) /\ In v (all_bytes b).
Proof.
  intros H. pose proof (all_bytes_length _ _ H) as L. pose proof (all_bytes_bytes _ _ H) as B. exists (firstn a s), (skipn a s).
  split; [symmetry; apply firstn_skipn|].
  assert (La : length (firstn a s) = a) by (apply firstn_length_le; lia). assert (Lb : length (skipn a s) = b) by (rewrite skipn_length; lia).
  split.
  - pose proof (proj1 (all_bytes_iff (firstn a s)) (Forall_firstn _ a s B)) as Q. rewrite La in Q. exact Q.
  - pose proof (proj1 (all_bytes_iff (skipn a s)) (Forall_skipn _ a s B)) as Q. rewrite Lb in Q. exact Q.
Qed.
Definition beqb (a b : list Z) : bool := if list_eq_dec Z.eq_dec a b then true else false.
Lemma filter_less {A} (p : A -> bool) l x : In x l -> p x = false -> length (filter p l) <= length l - 1.
Proof.
  intros H E. induction l as [|y l IH]; [destruct H|]. cbn [filter length].
  assert (Le : length (filter p l) <= length l) by (clear; induction l as [|z l IHl]; cbn; [lia|destruct (p z); cbn; lia]).
  destruct H as [->|H]; [rewrite E; lia|]. specialize (IH H). destruct l; [destruct H|]. destruct (p y); cbn [length] in *; lia.
Qed.
Lemma few_bad M mu B : 2 * M * mu <= B -> forall m t, ready M t -> left (at_ t) <= mu ->
  exists bad, length bad <= (256 ^ B - 1) ^ m /\ forall s, In s (all_bytes (m * B)) -> In s bad \/ succeeds t s.
Proof.
  intros HB. induction m as [|m IH]; intros t R L.
  - exists [[]]. split; [cbn; lia|]. intros s H. left. exact H.
  - destruct (hope M mu t L R) as [u0 [Bu [Lu Su]]].
    set (pad := repeat 0%Z (B - length u0)). set (u1 := u0 ++ pad).
    assert (Su1 : succeeds t u1) by (apply succeeds_app, Su).
    assert (Lu1 : length u1 = B) by (unfold u1, pad; rewrite app_length, repeat_length; lia).
    assert (I1 : In u1 (all_bytes B)).
    { rewrite <- Lu1. apply all_bytes_iff. unfold u1. apply Forall_app. split; [exact Bu|]. apply Forall_forall. intros x Hx. apply repeat_spec in Hx. rewrite Hx. lia. }
    assert (X : forall l, (forall u, In u l -> In u (all_bytes B)) -> exists bad, length bad <= length (filter (fun u => negb (beqb u u1)) l) * (256 ^ B - 1) ^ m /\
      forall u v, In u l -> In v (all_bytes (m * B)) -> In (u ++ v) bad \/ succeeds t (u ++ v)).
    { induction l as [|u l IHl]; intros Hl; [exists []; split; [cbn; lia|intros u v []]|].
      destruct (IHl ltac:(intros y Hy; apply Hl; right; exact Hy)) as [bad [Lb Hb]].
      cbn [filter]. unfold beqb at 1. destruct (list_eq_dec Z.eq_dec u u1) as [->|Nu]; cbn [negb].
      - exists bad. split; [exact Lb|]. intros y v [<-|Hy] Hv; [right; apply succeeds_app, Su1|apply Hb; assumption].
      - pose proof (all_bytes_bytes _ _ (Hl u (or_introl eq_refl))) as Bu'.
        destruct (exhaust M (length u + left (at_ t)) t u (le_n _) R Bu') as [S2|[t' [k [Rn [R' L']]]]].
        + exists bad. split; [cbn [length]; lia|]. intros y v [<-|Hy] Hv; [right; apply succeeds_app, S2|apply Hb; assumption].
        + destruct (IH t' R' ltac:(lia)) as [bad2 [Lb2 Hb2]]. exists (map (fun v => u ++ v) bad2 ++ bad). split.
          * rewrite app_length, map_length. cbn [length]. lia.
          * intros y v [<-|Hy] Hv.
            -- destruct (Hb2 v Hv) as [I|S2]; [left; apply in_or_app; left; apply in_map_iff; exists v; split; [reflexivity|exact I]|].
               right. eapply succeeds_runs; [exact (runs_app v _ _ _ _ _ Rn)|exact S2].
            -- destruct (Hb y v Hy Hv) as [I|S2]; [left; apply in_or_app; right; exact I|right; exact S2]. }
    destruct (X (all_bytes B) ltac:(auto)) as [bad [Lb Hb]]. exists bad. split.
    + eapply Nat.le_trans; [exact Lb|]. rewrite Nat.pow_succ_r'. apply Nat.mul_le_mono_r. rewrite <- all_bytes_count.
      apply (filter_less _ _ u1 I1). unfold beqb. destruct (list_eq_dec Z.eq_dec u1 u1); [reflexivity|congruence].
    + intros s Hs. change (S m * B) with (B + m * B) in Hs. destruct (all_bytes_split _ _ _ Hs) as [u [v [-> [Hu Hv]]]]. apply Hb; assumption.
Qed.
(** Longer streams do no worse. *)
Lemma few_bad_longer M mu B : 2 * M * mu <= B -> forall m N t, m * B <= N -> ready M t -> left (at_ t) <= mu ->
  exists bad, length bad <= (256 ^ B - 1) ^ m * 256 ^ (N - m * B) /\ forall s, In s (all_bytes N) -> In s bad \/ succeeds t s.
Proof.
  intros HB m N t HN R L. destruct (few_bad M mu B HB m t R L) as [bad [Lb Hb]].
  exists (flat_map (fun u => map (fun v => u ++ v) (all_bytes (N - m * B))) bad). split.
  - assert (E : length (flat_map (fun u => map (fun v => u ++ v) (all_bytes (N - m * B))) bad) = length bad * 256 ^ (N - m * B)).
    { rewrite <- all_bytes_count. clear. induction bad as [|x l IH]; [reflexivity|]. cbn [flat_map length]. rewrite app_length, map_length, IH. reflexivity. }
    rewrite E. apply Nat.mul_le_mono_r, Lb.
  - intros s Hs. replace N with (m * B + (N - m * B)) in Hs by lia. destruct (all_bytes_split _ _ _ Hs) as [u [v [-> [Hu Hv]]]].
    destruct (Hb u Hu) as [I|Su]; [left|right; apply succeeds_app, Su]. apply in_flat_map. exists u. split; [exact I|]. apply in_map_iff. exists v. split; [reflexivity|exact Hv].
Qed.
Lemma bernoulli a m : a ^ m * (a + m) <= (a + 1) ^ m * a.
Proof.
  induction m as [|m IH]; [cbn; lia|]. rewrite !Nat.pow_succ_r'.
  assert (H : a * a ^ m * (a + S m) <= (a + 1) * (a ^ m * (a + m))) by nia. nia.
Qed.
Lemma shrinks a q : 1 <= a -> a ^ (q * a) * (1 + q) <= (a + 1) ^ (q * a).
Proof. intros Ha. pose proof (bernoulli a (q * a)) as H. replace (a + q * a) with ((1 + q) * a) in H by lia. nia. Qed.
