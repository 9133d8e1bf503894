(** * Proofs about Len (C65). *)
From Coq Require Import String.
From Coq Require Import ZArith Arith List Bool Lia.
From Verif Require Import Utf8 GoStr GlobLex GlobMatch GlobCompile GlobSpec GlobSem GlobIndexSpec GlobIndex GlobLenSpec.
Import ListNotations.
Open Scope nat_scope.

(** ** Induction on matchers *)
Fixpoint msize (m : Matcher) : nat :=
  match m with
  | MAnyOf ms | MEveryOf ms | MRow ms _ => S (fold_right (fun m n => msize m + n) 0 ms)
  | MBTree v l r _ _ _ => S (msize v + match l with Some x => msize x | None => 0 end + match r with Some x => msize x | None => 0 end)
  | _ => 1
  end.
Lemma msize_in x ms : In x ms -> msize x < S (fold_right (fun m n => msize m + n) 0 ms).
Proof. induction ms as [|y ms IH]; [intros []|]. cbn [fold_right]. intros [<-|I]; [lia|]. specialize (IH I). lia. Qed.
Lemma part_size m x : part m x -> msize x < msize m.
Proof.
  destruct m; cbn [part msize]; try contradiction; try apply msize_in. intros [E | [E | E]]; subst; repeat match goal with |- context [match ?o with Some _ => _ | None => _ end] => destruct o end; lia.
Qed.
Lemma part_ind (P : Matcher -> Prop) : (forall m, (forall x, part m x -> P x) -> P m) -> forall m, P m.
Proof.
  intros H m. assert (G : forall n m, msize m <= n -> P m). { induction n as [|n IH]; intros x L; apply H; intros y I; apply part_size in I; [lia|]. apply IH. lia. } exact (G _ m (le_n _)).
Qed.
(** ** How the compiler builds matchers *)
Definition known (m : Matcher) : Prop := Len m <> (-1)%Z.
Definition btree_len (v : Matcher) (l r : option Matcher) : Z := if negb (Len v =? -1)%Z && negb (olen l =? -1)%Z && negb (olen r =? -1)%Z then (olen l + Len v + olen r)%Z else (-1)%Z.
Inductive built : Matcher -> Prop :=
  | b_text t : built (MText t) | b_any e : e <> [] -> built (MAny e) | b_super : built MSuper | b_single e : built (MSingle e) | b_list l n : built (MList l n) | b_range a b n : built (MRange a b n)
  | b_nothing : built MNothing | b_min n : built (MMin n) | b_max n : built (MMax n) | b_contains t n : built (MContains t n)
  | b_prefix t : built (MPrefix t) | b_suffix t : built (MSuffix t) | b_prefixany t e : built (MPrefixAny t e) | b_suffixany t e : built (MSuffixAny t e) | b_ps p q : built (MPrefixSuffix p q)
  | b_anyof ms : Forall built ms -> built (MAnyOf ms)
  | b_every ms : ms <> [] -> Forall built ms -> built (MEveryOf ms)
  | b_row ms len : Forall built ms -> Forall known ms -> len = fold_right (fun m l => Len m + l)%Z 0%Z ms -> built (MRow ms len)
  | b_btree v l r ll rl len : built v -> (forall x, l = Some x -> built x) -> (forall x, r = Some x -> built x) -> ll = olen l -> rl = olen r -> len = btree_len v l r -> built (MBTree v l r ll rl len).
Lemma any_len_ge ms : Forall (fun x => -1 <= Len x)%Z ms -> forall l, (-1 <= l)%Z -> (-1 <= any_len l (map sem ms))%Z.
Proof.
  induction 1 as [|m ms Hm F IH]; intros l L; cbn [map any_len]; [exact L|]. fold (Len m). destruct (l =? -1)%Z; [apply IH, Hm|]. destruct (Len m =? -1)%Z; [lia|]. destruct (l =? Len m)%Z; [apply IH, L|lia].
Qed.
Lemma len_ge m : built m -> (-1 <= Len m)%Z.
Proof.
  induction m as [m IH] using part_ind. intros B. destruct B as [t|e Ne| |e|l n|a b n| |n|n|t n|t|t|t e|t e|p q|ms F|ms N F|ms len F Fk ->|v l r ll rl len Bv Bl Br -> -> ->]; unfold Len; cbn [sem sLen]; unfold no; try lia.
  - apply any_len_ge; [|lia]. rewrite Forall_forall in *. intros x I. apply IH; [exact I|apply F, I].
  - destruct ms; [contradiction|]. cbn. lia.
  - cbn [part] in IH. destruct F as [|m ms Bm F]; [cbn; lia|]. cbn [fold_right]. inversion Fk as [|? ? Km Kms]; subst.
    assert (Hm : (-1 <= Len m)%Z) by (apply IH; [left; reflexivity|exact Bm]). unfold known in Km. assert (forall ms, Forall built ms -> Forall known ms -> (forall x, In x ms -> built x -> (-1 <= Len x)%Z) -> (0 <= fold_right (fun m l => Len m + l)%Z 0%Z ms)%Z).
    { clear. intros ms. induction 1 as [|m ms B F IH]; intros K H; [cbn; lia|]. cbn [fold_right]. inversion K as [|? ? K1 K2]; subst. specialize (IH K2 ltac:(intros x I; apply H; right; exact I)). specialize (H m ltac:(left; reflexivity) B). unfold known in K1. lia. }
    specialize (H ms F Kms ltac:(intros x I; apply IH; right; exact I)). unfold Len in *. lia.
  - unfold btree_len. assert (Hv : (-1 <= Len v)%Z) by (apply IH; [left; reflexivity|exact Bv]). assert (Hl : (-1 <= olen l)%Z) by (destruct l as [x|]; [cbn; apply IH; [right; left; reflexivity|apply Bl; reflexivity]|cbn; lia]).
    assert (Hr : (-1 <= olen r)%Z) by (destruct r as [x|]; [cbn; apply IH; [right; right; reflexivity|apply Br; reflexivity]|cbn; lia]).
    destruct (Z.eqb_spec (Len v) (-1)), (Z.eqb_spec (olen l) (-1)), (Z.eqb_spec (olen r) (-1)); cbn; lia.
Qed.
(** ** Len is right *)
Lemma any_len_known ms : forall l, l <> (-1)%Z -> any_len l (map sem ms) <> (-1)%Z -> forall x, In x ms -> Len x = l.
Proof.
  induction ms as [|m ms IH]; intros l N H x I; [destruct I|]. cbn [map any_len] in H. fold (Len m) in H. destruct (Z.eqb_spec l (-1)); [contradiction|]. destruct (Z.eqb_spec (Len m) (-1)); [congruence|]. destruct (Z.eqb_spec l (Len m)) as [E|E]; [|congruence].
  destruct I as [<-|I]; [congruence|]. apply (IH l N H x I).
Qed.
Lemma any_len_value ms : forall l, l <> (-1)%Z -> any_len l (map sem ms) = l \/ any_len l (map sem ms) = (-1)%Z.
Proof.
  induction ms as [|m ms IH]; intros l N; cbn [map any_len]; [auto|]. destruct (Z.eqb_spec l (-1)); [contradiction|]. destruct (_ =? -1)%Z; [auto|]. destruct (Z.eqb_spec l (sLen (sem m))); [apply IH, N|auto].
Qed.
Lemma even_all ms n : even (MRow ms n) <-> Forall even ms.
Proof. cbn [even]. induction ms as [|m ms IH]; [split; [constructor|exact (fun _ => I)]|]. rewrite IH. split; [intros [A B]; constructor; assumption|intros H; inversion H; auto]. Qed.
Lemma len_text b : Forall valid_rune b -> length (range_str (utf8 b)) = length b.
Proof. intros V. rewrite <- (runes_utf8 b V) at 2. unfold runes. rewrite map_length. reflexivity. Qed.
Lemma built_len m : built m -> even m -> len_right m.
Proof.
  induction m as [m IH] using part_ind. intros B E K b Vb Lb. destruct B as [t|e Ne| |e|l n|x y n| |n|n|t n|t|t|t e|t e|p q|ms F|ms N F|ms len F Fk ->|v l r ll rl len Bv Bl Br -> -> ->]; unfold Len in K |- *; cbn [sem sLen] in K |- *; unfold no in *; try congruence.
  - cbn [lang_of] in Lb. subst t. rewrite len_text by exact Vb. reflexivity.
  - destruct Lb as [c [-> _]]. reflexivity.
  - destruct Lb as [c [-> _]]. reflexivity.
  - destruct Lb as [c [-> _]]. reflexivity.
  - cbn [lang_of] in Lb. subst b. reflexivity.
  - destruct E as [E1 E2]. apply (even_all ms 0) in E1. rewrite Forall_forall in F, E1. destruct ms as [|m0 ms]; [destruct Lb|]. cbn [map any_len] in *. change (-1 =? -1)%Z with true in *. cbn match in *. fold (Len m0) in *.
    assert (K0 : Len m0 <> (-1)%Z).
    { destruct E2 as [E2|E2]; [apply E2; left; reflexivity|]. exfalso. apply K. clear - E2. assert (Q : Len m0 = (-1)%Z) by (apply E2; left; reflexivity). rewrite Q. assert (E3 : forall x, In x ms -> Len x = (-1)%Z) by (intros x I; apply E2; right; exact I). clear E2 Q. induction ms as [|m ms IH]; [reflexivity|]. cbn [map any_len]. change (-1 =? -1)%Z with true. fold (Len m). rewrite (E3 m) by (left; reflexivity). apply IH. intros x I. apply E3. right. exact I. }
    assert (V0 : any_len (Len m0) (map sem ms) = Len m0) by (destruct (any_len_value ms (Len m0) K0); [assumption|contradiction]). rewrite V0.
    assert (AL : forall x, In x (m0 :: ms) -> Len x = Len m0) by (intros x [<-|I]; [reflexivity|apply (any_len_known ms (Len m0) K0 K x I)]).
    assert (X : exists x, In x (m0 :: ms) /\ lang_of x b).
    { clear - Lb. change (lang_of (MAnyOf (m0 :: ms)) b) in Lb. revert Lb. generalize (m0 :: ms). intros l. cbn [lang_of]. induction l as [|y l IHl]; [intros []|]. intros [Q|Q]; [exists y; split; [left; reflexivity|exact Q]|]. destruct (IHl Q) as [x [I Hx]]. exists x. split; [right; exact I|exact Hx]. }
    destruct X as [x [I Hx]]. rewrite <- (AL x I). apply (IH x I (F x I) (E1 x I)); [rewrite (AL x I); exact K0|exact Vb|exact Hx].
  - destruct ms; [contradiction|]. cbn in K. congruence.
  - apply even_all in E. cbn [part] in IH. clear K. revert b Vb Lb. cbn [lang_of]. induction ms as [|m ms IHm]; intros b Vb Lb; [subst b; reflexivity|]. destruct Lb as [u [w [-> [Lu Lw]]]]. apply Forall_app in Vb. rewrite app_length, Nat2Z.inj_add. cbn [fold_right].
    inversion F as [|? ? F1 F2]; subst. inversion Fk as [|? ? K1 K2]; subst. inversion E as [|? ? E1 E2]; subst. f_equal.
    + apply (IH m ltac:(left; reflexivity) F1 E1 K1 u (proj1 Vb) Lu).
    + apply IHm; try assumption; [intros x I; apply IH; right; exact I|tauto].
  - unfold btree_len in *. destruct E as [Ev [El Er]]. destruct (Z.eqb_spec (Len v) (-1)) as [|Kv]; [cbn in K; congruence|]. destruct (Z.eqb_spec (olen l) (-1)) as [|Kl]; [cbn in K; congruence|]. destruct (Z.eqb_spec (olen r) (-1)) as [|Kr]; [cbn in K; congruence|]. cbn [negb andb].
    cbn [lang_of] in Lb. destruct Lb as [x [y [z [-> [Lx [Ly Lz]]]]]]. rewrite !Forall_app in Vb. destruct Vb as [Vx [Vy Vz]]. rewrite !app_length, !Nat2Z.inj_add.
    rewrite (IH v ltac:(left; reflexivity) Bv Ev Kv y Vy Ly). assert (Hx : Z.of_nat (length x) = olen l).
    { destruct l as [a|]; [cbn [olen] in *; apply (IH a ltac:(right; left; reflexivity) (Bl a eq_refl) El Kl x Vx Lx)|subst x; reflexivity]. }
    assert (Hz : Z.of_nat (length z) = olen r).
    { destruct r as [a|]; [cbn [olen] in *; apply (IH a ltac:(right; right; reflexivity) (Br a eq_refl) Er Kr z Vz Lz)|subst z; reflexivity]. }
    lia.
Qed.
(** ** The compiler *)
Lemma new_btree v l r : built v -> (forall x, l = Some x -> built x) -> (forall x, r = Some x -> built x) -> built (NewBTree v l r).
Proof. intros. unfold NewBTree. apply b_btree; auto. Qed.
Lemma encode_one c : length (range_str (encode c)) = 1.
Proof.
  assert (V : exists d, valid_rune d /\ encode c = utf8 [d]).
  { unfold encode at 1. destruct ((c <? 0) || (c >? 1114111) || surrogate c)%Z eqn:Q.
    - exists RuneError. split; [split; [vm_compute; split; discriminate|reflexivity]|reflexivity].
    - exists c. split.
      + rewrite !orb_false_iff in Q. destruct Q as [[Q1 Q2] Q3]. split; [|exact Q3]. apply Z.ltb_ge in Q1. rewrite Z.gtb_ltb in Q2. apply Z.ltb_ge in Q2. lia.
      + unfold utf8. cbn [map concat]. rewrite app_nil_r. unfold encode. rewrite Q. reflexivity. }
  destruct V as [d [Vd ->]]. rewrite len_text; [reflexivity|]. constructor; [exact Vd|constructor].
Qed.
Lemma optimize_built m : built m -> built (optimizeMatcher m) /\ Len (optimizeMatcher m) = Len m.
Proof.
  induction m as [m IH] using part_ind. intros B. destruct B as [t|e Ne| |e|l n|x y n| |n|n|t n|t|t|t e|t e|p q|ms F|ms N F|ms len F Fk ->|v l r ll rl len Bv Bl Br -> -> ->]; try (split; [constructor; assumption|reflexivity]).
  - destruct e; [contradiction|]. split; [constructor; discriminate|reflexivity].
  - destruct l as [|c [|]], n; try (split; [constructor|reflexivity]). cbn [optimizeMatcher]. split; [constructor|]. unfold Len. cbn [sem sLen]. rewrite encode_one. reflexivity.
  - destruct ms as [|x [|]]; try (split; [constructor; assumption|reflexivity]). cbn [optimizeMatcher]. split; [inversion F; assumption|reflexivity].
  - split; [constructor; auto|reflexivity].
  - cbn [optimizeMatcher]. set (l' := match l with Some x => Some (optimizeMatcher x) | None => None end). set (r' := match r with Some x => Some (optimizeMatcher x) | None => None end).
    assert (HL : (forall x, l' = Some x -> built x) /\ olen l' = olen l).
    { unfold l'. destruct l as [x|]; [|split; [discriminate|reflexivity]]. destruct (IH x ltac:(right; left; reflexivity) (Bl x eq_refl)) as [H1 H2]. split; [intros y E; injection E as <-; exact H1|exact H2]. }
    assert (HR : (forall x, r' = Some x -> built x) /\ olen r' = olen r).
    { unfold r'. destruct r as [x|]; [|split; [discriminate|reflexivity]]. destruct (IH x ltac:(right; right; reflexivity) (Br x eq_refl)) as [H1 H2]. split; [intros y E; injection E as <-; exact H1|exact H2]. }
    destruct HL as [HL1 HL2], HR as [HR1 HR2]. assert (BL : btree_len v l r = btree_len v l' r') by (unfold btree_len; rewrite HL2, HR2; reflexivity). rewrite <- HL2, <- HR2. change (Len (MBTree v l r (olen l') (olen r') (btree_len v l r))) with (btree_len v l r). rewrite BL.
    assert (K : built (MBTree v l' r' (olen l') (olen r') (btree_len v l' r')) /\ Len (MBTree v l' r' (olen l') (olen r') (btree_len v l' r')) = btree_len v l' r') by (split; [apply b_btree; auto|reflexivity]).
    clearbody l' r'. clear - K.
    destruct v; try exact K. destruct l' as [[]|], r' as [[]|]; try exact K; (split; [constructor|]); unfold Len, btree_len; cbn [olen]; unfold Len; cbn [sem sLen]; unfold no; rewrite ?andb_false_r; try reflexivity.
    destruct (Z.eqb_spec (Z.of_nat (length (range_str s))) (-1)); cbn; lia.
Qed.
Lemma Forall_firstn' {A} (P : A -> Prop) n l : Forall P l -> Forall P (firstn n l).
Proof. intros F. rewrite <- (firstn_skipn n l), Forall_app in F. tauto. Qed.
Lemma Forall_skipn' {A} (P : A -> Prop) n l : Forall P l -> Forall P (skipn n l).
Proof. intros F. rewrite <- (firstn_skipn n l), Forall_app in F. tauto. Qed.
Lemma glue_built ms m : Forall built ms -> glueMatchers ms = Some m -> built m.
Proof.
  intros F. unfold glueMatchers. destruct (glueMatchersAsEvery ms) as [x|] eqn:EV.
  - intros E. injection E as <-. unfold glueMatchersAsEvery in EV. destruct (length ms <=? 1); [discriminate|]. destruct ms as [|m0 ms0]; [discriminate|]. destruct (glue_kind m0) as [[sep k0]|]; [|discriminate]. destruct (glue_kinds sep (m0 :: ms0)) as [ks|] eqn:KS; [|discriminate]. cbv zeta in EV.
    assert (NA : existsb is_any ks = true -> sep <> []).
    { clear EV. revert ks KS. generalize dependent (m0 :: ms0). intros l Fl. induction Fl as [|m l B Fl IH]; intros ks KS Q; cbn [glue_kinds] in KS; [injection KS as <-; discriminate|]. destruct (glue_kind m) as [[s k]|] eqn:GK; [|discriminate]. destruct (zs_eqb s sep) eqn:ZE; [|discriminate]. destruct (glue_kinds sep l) as [ks'|]; [|discriminate]. injection KS as <-. cbn [existsb] in Q. apply orb_true_iff in Q. destruct Q as [Q|Q]; [|exact (IH ks' eq_refl Q)].
      destruct k; try discriminate. unfold zs_eqb in ZE. destruct (list_eq_dec Z.eq_dec s sep); [|discriminate]. subst s. destruct B; cbn [glue_kind] in GK; try discriminate; try (injection GK as <-; assumption); destruct n; discriminate. }
    assert (NE : ks <> []) by (destruct ks; [cbn [glue_kinds] in KS; destruct (glue_kind m0) as [[? ?]|]; [destruct (zs_eqb l sep); [destruct (glue_kinds sep ms0)|]|]; discriminate|discriminate]).
    destruct (existsb is_super ks && negb (existsb is_any ks) && negb (existsb is_one ks)) eqn:C1; [injection EV as <-; constructor|].
    destruct (existsb is_any ks && negb (existsb is_super ks) && negb (existsb is_one ks)) eqn:C2; [injection EV as <-; constructor; apply NA; apply andb_true_iff in C2; destruct C2 as [C2 _]; apply andb_true_iff in C2; tauto|].
    destruct ((existsb is_any ks || existsb is_super ks) && (0 <? length (filter is_one ks)) && (length sep =? 0)) eqn:C3; [injection EV as <-; constructor|]. injection EV as <-.
    assert (NZ : length (filter is_one ks) <> 0 \/ sep <> []).
    { destruct (existsb is_one ks) eqn:QO.
      - left. apply existsb_exists in QO. destruct QO as [k [I Hk]]. assert (In k (filter is_one ks)) by (apply filter_In; auto). destruct (filter is_one ks); [contradiction|discriminate].
      - right. apply NA. destruct (existsb is_any ks) eqn:QA; [reflexivity|]. exfalso. destruct (existsb is_super ks) eqn:QS; [discriminate C1|]. destruct ks as [|k ks]; [contradiction|]. destruct k; cbn in QO, QA, QS; discriminate. }
    apply b_every.
    + destruct (Nat.ltb_spec 0 (length (filter is_one ks))) as [L|L]; [discriminate|]. destruct NZ as [NZ|NZ]; [lia|]. destruct sep; [contradiction|]. discriminate.
    + apply Forall_app. split; repeat match goal with |- context [if ?c then _ else _] => destruct c end; repeat constructor.
  - unfold glueMatchersAsRow. destruct (length ms <=? 1); [discriminate|]. destruct (existsb _ ms) eqn:Q; [discriminate|]. intros E. injection E as <-. constructor; [exact F| |reflexivity]. apply Forall_forall. intros x I K. apply not_true_iff_false in Q. apply Q. apply existsb_exists. exists x. split; [exact I|]. apply Z.eqb_eq, K.
Qed.
Lemma minimize_built : forall fuel ms, Forall built ms -> Forall built (minimize_f fuel ms).
Proof.
  induction fuel as [|f IH]; intros ms F; [exact F|]. cbn [minimize_f].
  assert (G : forall ps b, match b with Some (d, _, _) => built d | None => True end -> match fold_left (consider ms) ps b with Some (d, _, _) => built d | None => True end).
  { induction ps as [|[l r] ps IHp]; intros b Hb; [exact Hb|]. cbn [fold_left]. apply IHp. unfold consider. destruct (glueMatchers _) as [g|] eqn:G; [|exact Hb].
    assert (Bg : built g) by (apply (glue_built _ _ (Forall_firstn' built (r - l) _ (Forall_skipn' built l _ F)) G)). destruct b as [[[d dl] dr]|]; [|exact Bg]. destruct (_ || _); [exact Bg|exact Hb]. }
  specialize (G (slices (length ms)) None I). destruct (fold_left _ _ _) as [[[d l] r]|]; [|exact F].
  assert (N : Forall built (firstn l ms ++ d :: skipn r ms)) by (apply Forall_app; split; [apply Forall_firstn', F|constructor; [exact G|apply Forall_skipn', F]]). destruct (_ =? _); [exact N|apply IH, N].
Qed.
Lemma longest_in ms : forall i mx found j m, longest ms i mx found = Some (j, m) -> found = Some (j, m) \/ In m ms.
Proof.
  induction ms as [|x ms IH]; intros i mx found j m H; cbn [longest] in H; [auto|]. destruct (_ && _).
  - apply IH in H. destruct H as [H|H]; [injection H as <- <-; right; left; reflexivity|right; right; exact H].
  - apply IH in H. destruct H as [H|H]; [left; exact H|right; right; exact H].
Qed.
Lemma compile_built : forall fuel ms m, Forall built ms -> compileMatchers_f fuel ms = Some m -> built m.
Proof.
  induction fuel as [|f IH]; intros ms m F E; [discriminate|]. cbn [compileMatchers_f] in E. destruct ms as [|m0 rest]; [discriminate|]. destruct rest as [|m1 rest]; [injection E as <-; inversion F; assumption|]. set (ms := m0 :: m1 :: rest) in *.
  destruct (glueMatchers ms) as [g|] eqn:G; [injection E as <-; exact (glue_built _ _ F G)|]. destruct (longest ms 0 (-1)%Z None) as [[idx val]|] eqn:LG.
  - destruct (longest_in _ _ _ _ _ _ LG) as [H|H]; [discriminate|]. assert (Bv : built val) by (rewrite Forall_forall in F; apply F, H).
    destruct (match firstn idx ms with [] => Some None | _ => _ end) as [l'|] eqn:EL; [|discriminate]. destruct (match skipn (S idx) ms with [] => Some None | _ => _ end) as [r'|] eqn:ER; [|discriminate]. injection E as <-. apply new_btree; [exact Bv| |].
    + intros x ->. pose proof (Forall_firstn' built idx _ F) as Fl. destruct (firstn idx ms) as [|y ys]; [discriminate|]. destruct (compileMatchers_f f (y :: ys)) as [z|] eqn:C; [|discriminate]. injection EL as <-. exact (IH _ _ Fl C).
    + intros x ->. pose proof (Forall_skipn' built (S idx) _ F) as Fl. destruct (skipn (S idx) ms) as [|y ys]; [discriminate|]. destruct (compileMatchers_f f (y :: ys)) as [z|] eqn:C; [|discriminate]. injection ER as <-. exact (IH _ _ Fl C).
  - destruct (compileMatchers_f f (m1 :: rest)) as [r|] eqn:C; [|discriminate]. injection E as <-. inversion F as [|? ? F1 F2]; subst. apply new_btree; [exact F1|discriminate|]. intros x H. injection H as <-. exact (IH _ _ F2 C).
Qed.
Lemma map_opt_built (g : Node -> option Matcher) ch : forall ms, (forall c m, g c = Some m -> built m) -> map_opt (fun c => option_map optimizeMatcher (g c)) ch = Some ms -> Forall built ms.
Proof.
  induction ch as [|c ch IH]; intros ms H E; cbn [map_opt] in E; [injection E as <-; constructor|]. destruct (g c) as [m|] eqn:G; [|discriminate]. cbn [option_map] in E. destruct (map_opt _ ch) as [ys|] eqn:Q; [|discriminate]. injection E as <-. constructor; [apply optimize_built, (H c m G)|apply IH; [exact H|reflexivity]].
Qed.
Lemma compile_f_built : forall fuel n sep m, compile_f fuel n sep = Some m -> built m.
Proof.
  induction fuel as [|f IH]; intros n sep m E; [discriminate|]. cbn [compile_f] in E. assert (O : forall x, built x -> built (optimizeMatcher x)) by (intros x B; apply optimize_built, B). destruct n as [|ch|not chars|not lo hi|t| | | |ch].
  - injection E as <-. constructor.
  - destruct ch as [|c ch]; [injection E as <-; constructor|]. destruct (map_opt _ (c :: ch)) as [ms|] eqn:Q; [|discriminate]. destruct (compileMatchers (minimizeMatchers ms)) as [x|] eqn:C; [|discriminate]. injection E as <-. apply O. apply (compile_built _ _ _ (minimize_built _ _ (map_opt_built (fun c => compile_f f c sep) (c :: ch) ms ltac:(intros y m H; exact (IH _ _ _ H)) Q)) C).
  - injection E as <-. apply (O (MList (runes chars) not)). constructor.
  - injection E as <-. constructor.
  - injection E as <-. constructor.
  - injection E as <-. destruct sep; [constructor|]. cbn. constructor. discriminate.
  - injection E as <-. constructor.
  - injection E as <-. constructor.
  - destruct (minimizeTreeAnyOf ch) as [n'|]; [exact (IH _ _ _ E)|]. destruct (map_opt _ ch) as [ms|] eqn:Q; [|discriminate]. injection E as <-. constructor. exact (map_opt_built (fun c => compile_f f c sep) ch ms ltac:(intros y m H; exact (IH _ _ _ H)) Q).
Qed.
Lemma built_part m x : built m -> part m x -> built x.
Proof.
  intros B P. destruct B as [t|e Ne| |e|l n|a b n| |n|n|t n|t|t|t e|t e|p q|ms F|ms N F|ms len F Fk ->|v l r ll rl len Bv Bl Br -> -> ->]; cbn [part] in P; try contradiction; try (rewrite Forall_forall in F; apply F, P).
  destruct P as [->|[E|E]]; auto.
Qed.
Lemma built_inside x m : inside x m -> built m -> built x.
Proof. induction 1 as [m|x y m P _ IH]; intros B; [exact B|]. apply IH. exact (built_part m y B P). Qed.
