(** * Globs that never crash: proofs for C68. *)
From Coq Require Import String.
From Coq Require Import ZArith Arith List Bool Lia.
From Verif Require Import Utf8 GoStr GlobLex GlobMatch GlobCompile GlobSpec GlobSem GlobGlue GlobFactor GlobIndexSpec GlobIndex GlobLenSpec GlobLen GlobSafeSpec.
Import ListNotations.
Open Scope nat_scope.

(** ** Matchers *)
(** Match and Index give a result for every string, and an index found is a position in the string. *)
Definition within (s : str) (r : IR) : Prop := forall i segs, r = Some (i, segs) -> i = 0 \/ i < length s.
Definition tame (x : Sem) : Prop :=
  (forall s, exists b, sMatch x s = Some b) /\ (forall s, exists r, sIndex x s = Some r /\ within s r).
Lemma range_from_lt fuel : forall i s, Forall (fun ir => i <= fst ir < i + length s) (range_from fuel i s).
Proof.
  induction fuel as [|f IH]; intros i s; [constructor|]. destruct s as [|b s]; [constructor|]. cbn [range_from].
  pose proof (decode_width (b :: s) ltac:(discriminate)) as W. destruct (decode (b :: s)) as [r w]. cbn [snd] in W. constructor; [cbn [fst length]; lia|].
  eapply Forall_impl; [|apply IH]. intros [j c]. cbn [fst]. rewrite skipn_length. cbn [length] in *. lia.
Qed.
Lemma range_str_lt s : Forall (fun ir => fst ir < length s) (range_str s).
Proof. eapply Forall_impl; [|apply (range_from_lt (length s) 0 s)]. cbn. lia. Qed.
Lemma first_rune_inside p s : within s (first_rune p s).
Proof.
  intros i segs E. right. unfold first_rune in E. destruct (find _ _) as [[j r]|] eqn:F; [|discriminate]. injection E as <- _. apply find_some in F. destruct F as [F _].
  pose proof (range_str_lt s) as R. rewrite Forall_forall in R. apply (R _ F).
Qed.
Lemma index_inside s t i : index_of s t = Some i -> i = 0 \/ i < length s.
Proof.
  intros E. pose proof (index_of_spec s t) as P. rewrite E in P. destruct t as [|c t]; [|destruct P as [P1 _]; cbn [length] in *; lia].
  left. unfold index_of in E. destruct s; cbn in E; injection E as <-; reflexivity.
Qed.
Lemma last_index_lt c : forall s i j, last_index s [c] i = Some j -> i <= j < i + length s.
Proof.
  induction s as [|b s IH]; intros i j; cbn [last_index]; [cbn; discriminate|]. destruct (last_index s [c] (S i)) as [k|] eqn:E.
  - intros Q. injection Q as <-. apply IH in E. cbn [length]. lia.
  - destruct (HasPrefix (b :: s) [c]); [|discriminate]. intros Q. injection Q as <-. cbn [length]. lia.
Qed.
Lemma last_any_ascii e s : ascii e -> exists l, LastIndexAnyRunes s e = Some l /\ forall j, l = Some j -> j < length s.
Proof.
  induction e as [|r e IH]; intros A; [exists None; split; [reflexivity|discriminate]|]. inversion A as [|? ? R A']; subst. cbn [LastIndexAnyRunes].
  replace ((0 <=? r) && (r <? 128))%Z with true by (symmetry; apply andb_true_iff; split; [apply Z.leb_le|apply Z.ltb_lt]; lia).
  destruct (last_index_of s [r]) as [i|] eqn:E; [|apply IH, A']. exists (Some i). split; [reflexivity|]. intros j Q. injection Q as <-. apply last_index_lt in E. lia.
Qed.
Lemma slice_ok s a b : a <= b -> b <= length s -> exists t, slice s a b = Some t /\ length t = b - a.
Proof. intros A B. eexists. split; [apply slice_some; assumption|]. apply sub_len. lia. Qed.
(** *** Rows *)
Lemma row_scan_inside len n : forall rs i next, (forall p, In p rs -> fst p < n) -> next < n -> fst (row_scan rs len i next) < n /\ i <= snd (row_scan rs len i next).
Proof.
  induction rs as [|[p c] rs IH]; intros i next H N; cbn [row_scan]; [cbn; lia|]. destruct (Z.of_nat (S i) =? len)%Z; [cbn [fst snd]; split; [apply (H (p, c)); left; reflexivity|lia]|].
  destruct (IH (S i) p) as [A B]; [intros q I; apply H; right; exact I|apply (H (p, c)); left; reflexivity|]. split; [exact A|lia].
Qed.
Lemma row_all_total ms : Forall (fun x => (forall s, exists b, sMatch x s = Some b) /\ (1 <= sLen x)%Z) ms -> forall s idx, idx <= length s -> exists b, row_all ms s idx = Some b.
Proof.
  induction ms as [|x ms IH]; intros F s idx L; [exists true; reflexivity|]. inversion F as [|? ? [Mx Lx] F']; subst. cbn [row_all].
  destruct (slice_ok s idx (length s) L (Nat.le_refl _)) as [rest [-> Lr]]. destruct (Nat.eq_dec (length rest) 0) as [E|E].
  - destruct rest; [|discriminate]. cbn. replace (0 <? sLen x)%Z with true by (symmetry; apply Z.ltb_lt; lia). eauto.
  - destruct (row_scan_inside (sLen x) (length rest) (range_str rest) 0 0) as [A _]; [intros p I; pose proof (range_str_lt rest) as R; rewrite Forall_forall in R; apply R, I|lia|].
    destruct (row_scan (range_str rest) (sLen x) 0 0) as [next i]. cbn [fst] in A. destruct (Z.of_nat i <? sLen x)%Z; [eauto|].
    destruct (slice_ok s idx (idx + next + 1) ltac:(lia) ltac:(lia)) as [part [-> _]]. destruct (Mx part) as [[|] ->]; [|eauto]. apply IH; [exact F'|lia].
Qed.
Lemma row_index_total ms len s : Forall (fun x => (forall s, exists b, sMatch x s = Some b) /\ (1 <= sLen x)%Z) ms ->
  forall ps, Forall (fun p => p < length s) ps -> exists r, row_index ms len s ps = Some r /\ within s r.
Proof.
  intros F. induction ps as [|i ps IH]; intros P; [exists None; split; [reflexivity|intros ? ? ?; discriminate]|]. inversion P as [|? ? Pi P']; subst. cbn [row_index].
  destruct (Z.of_nat (length (skipn i s)) <? len)%Z; [exists None; split; [reflexivity|intros ? ? ?; discriminate]|].
  destruct (row_all_total ms F (skipn i s) 0 ltac:(lia)) as [[|] ->]; [|apply IH, P']. eexists. split; [reflexivity|]. intros j segs E. injection E as <- _. right. exact Pi.
Qed.
(** *** Combinations *)
Lemma any_total xs s : Forall tame xs -> (exists b, any_match xs s = Some b) /\ forall acc, within s acc -> exists r, any_index xs s acc = Some r /\ within s r.
Proof.
  induction xs as [|x xs IH]; intros F; [split; [exists false; reflexivity|intros acc A; exists acc; auto]|]. inversion F as [|? ? [Mx Ix] F']; subst. destruct (IH F') as [Ma Ia]. split.
  - cbn [any_match]. destruct (Mx s) as [[|] ->]; eauto.
  - intros acc A. cbn [any_index]. destruct (Ix s) as [r [-> R]]. destruct r as [[i seg]|]; [|apply Ia, A]. destruct acc as [[i0 seg0]|]; [|apply Ia, R].
    destruct (i <? i0); [apply Ia, R|]. destruct (i0 <? i); [apply Ia, A|]. apply Ia. intros j segs E. injection E as <- _. apply (A i0 seg0 eq_refl).
Qed.
Lemma every_index_total xs : Forall tame xs -> forall first s off index cur, off = 0 \/ off < length s -> index = 0 \/ index < length s ->
  exists r, every_index first xs s (skipn off s) index off cur = Some r /\ within s r.
Proof.
  induction xs as [|x xs IH]; intros F first s off index cur L I; cbn [every_index]; [eexists; split; [reflexivity|]; intros i segs E; injection E as <- _; auto|].
  inversion F as [|? ? [_ Ix] F']; subst. destruct (Ix (skipn off s)) as [r [-> R]]. destruct r as [[idx seg]|]; [|eexists; split; [reflexivity|]; intros ? ? ?; discriminate].
  match goal with |- context [negb first && (length ?z =? 0)] => generalize z end. intros next. destruct (negb first && (length next =? 0)); [eexists; split; [reflexivity|]; intros ? ? ?; discriminate|].
  specialize (R _ _ eq_refl). rewrite skipn_length in R. rewrite slice_some by lia. rewrite sub_all. replace (off + idx) with (idx + off) by lia.
  apply IH; [exact F'|lia|lia].
Qed.
Lemma every_total xs s : Forall tame xs -> exists b, every_match xs s = Some b.
Proof. induction xs as [|x xs IH]; intros F; [exists true; reflexivity|]. inversion F as [|? ? [Mx _] F']; subst. cbn [every_match]. destruct (Mx s) as [[|] ->]; eauto. Qed.
(** *** Trees *)
Definition otame (o : option Sem) : Prop := match o with Some x => forall s, exists b, sMatch x s = Some b | None => True end.
Lemma opt_total o s : otame o -> exists b, opt_match o s = Some b.
Proof. destruct o; intros H; [apply H|eexists; reflexivity]. Qed.
Lemma try_right_total r s at_ : otame r -> forall segs, exists b, try_right r s at_ segs = Some b.
Proof. intros H. induction segs as [|k segs IH]; [exists false; reflexivity|]. cbn [try_right]. match goal with |- context [opt_match r ?z] => destruct (opt_total r z H) as [[|] ->] end; eauto. Qed.
Lemma btree_loop_total v l r s limit : tame v -> otame l -> otame r -> (limit <= Z.of_nat (length s))%Z -> forall fuel offset, (0 <= offset)%Z -> 0 < fuel -> (limit < offset + Z.of_nat fuel)%Z ->
  exists b, btree_loop fuel v l r s offset limit = Some b.
Proof.
  intros [_ Iv] Hl Hr Lim. induction fuel as [|f IH]; intros offset P P0 L; [lia|]. cbn [btree_loop]. destruct (Z.ltb_spec offset limit) as [O|O]; [|eauto].
  destruct (slice_ok s (Z.to_nat offset) (Z.to_nat limit) ltac:(lia) ltac:(lia)) as [mid [-> Lm]]. destruct (Iv mid) as [r0 [-> W]]. destruct r0 as [[i segs]|]; [|eauto].
  specialize (W _ _ eq_refl). cbv zeta. destruct (Nat.ltb_spec (length s) (Z.to_nat offset + i)) as [X|X]; [lia|].
  destruct (opt_total l (firstn (Z.to_nat offset + i) s) Hl) as [bl ->].
  assert (N : skipn (Z.to_nat offset + i) s <> []). { intros E. apply (f_equal (@length Z)) in E. rewrite skipn_length in E. cbn in E. lia. }
  pose proof (decode_width _ N) as D.
  assert (T : exists b, btree_loop f v l r s (offset + Z.of_nat (i + snd (decode (skipn (Z.to_nat offset + i) s)))) limit = Some b) by (apply IH; lia).
  destruct bl; [|exact T]. destruct (try_right_total r s (Z.to_nat offset + i) Hr (rev segs)) as [[|] ->]; [eauto|exact T].
Qed.
Lemma btree_total v l r ll rl len s : tame v -> otame l -> otame r -> exists b, btree_match v l r ll rl len s = Some b.
Proof.
  intros V L R. unfold btree_match, offset_limit. destruct (negb (len =? -1)%Z && (Z.of_nat (length s) <? len)%Z); [apply btree_loop_total; try assumption; lia|].
  destruct (Z.leb_spec 0 ll), (Z.leb_spec 0 rl); apply btree_loop_total; try assumption; lia.
Qed.
(** ** Every matcher the compiler makes *)
(** No part of a row has length 0; what A says of the separators of *, and those of a text after * are ASCII. *)
Section Invariant.
Context {A : list Z -> Prop}.
Definition localA (m : Matcher) : Prop :=
  match m with MRow ms _ => Forall (fun x => Len x <> 0%Z) ms | MAny e => A e | MSuffixAny _ e => ascii e | _ => True end.
Definition calmA (m : Matcher) : Prop := forall x, inside x m -> localA x.
Lemma calm_iff m : calmA m <-> localA m /\ forall x, part m x -> calmA x.
Proof.
  split.
  - intros H. split; [apply H; constructor|]. intros x P y I. apply H. exact (inside_part y x m P I).
  - intros [L H] x I. destruct I as [m|x y m P I]; [exact L|exact (H y P x I)].
Qed.
Lemma nowhere s : within s None.
Proof. intros ? ? ?. discriminate. Qed.
Lemma at_start s segs : within s (Some (0, segs)).
Proof. intros i g E. injection E as <- _. auto. Qed.
Lemma found s t g : within s (match index_of s t with Some i => Some (i, g i) | None => None end).
Proof. destruct (index_of s t) as [i|] eqn:E; [|apply nowhere]. intros j segs Q. injection Q as <- _. exact (index_inside s t i E). Qed.
Lemma built_tame m : built m -> calmA m -> tame (sem m).
Proof.
  induction m as [m IH] using part_ind. intros B C. apply calm_iff in C. destruct C as [LC PC]. assert (IH' : forall x, part m x -> tame (sem x)) by (intros x P; apply IH; [exact P|exact (built_part m x B P)|exact (PC x P)]). clear IH PC.
  destruct B as [t|e Ne| |e|l n|a b n| |n|n|t n|t|t|t e|t e|p q|ms F|ms N F|ms len F Fk ->|v l r ll rl len Bv Bl Br -> -> ->]; cbn [localA part] in *; try (split; [intros s; cbn [sem sMatch]; eauto|]; intros s; cbn [sem sIndex]).
  - eexists. split; [reflexivity|]. apply (found s t (fun _ => [length t])).
  - eexists. split; [reflexivity|]. destruct (IndexAnyRunes s e) as [[|i]|]; apply at_start.
  - eexists. split; [reflexivity|]. apply at_start.
  - eexists. split; [reflexivity|]. apply first_rune_inside.
  - eexists. split; [reflexivity|]. apply first_rune_inside.
  - eexists. split; [reflexivity|]. apply first_rune_inside.
  - eexists. split; [reflexivity|]. apply at_start.
  - eexists. split; [reflexivity|]. destruct (_ <=? 0)%Z; [apply nowhere|]. destruct (map _ _); [apply nowhere|apply at_start].
  - eexists. split; [reflexivity|]. apply at_start.
  - eexists. split; [reflexivity|]. destruct (index_of s t) as [i|]; destruct n; try apply at_start; try apply nowhere. cbv zeta. destruct (_ <=? _); apply at_start.
  - eexists. split; [reflexivity|]. destruct (index_of s t) as [i|] eqn:E; [|apply nowhere]. intros j segs Q. injection Q as <- _. exact (index_inside s t i E).
  - eexists. split; [reflexivity|]. destruct (index_of s t) as [i|]; [apply at_start|apply nowhere].
  - eexists. split; [reflexivity|]. destruct (index_of s t) as [i|] eqn:E; [|apply nowhere]. intros j segs Q. cbv zeta in Q. injection Q as <- _. exact (index_inside s t i E).
  - destruct (index_of s t) as [i|] eqn:E; [|eexists; split; [reflexivity|apply nowhere]]. destruct (last_any_ascii e (firstn i s) LC) as [l [-> Hl]]. cbv zeta. eexists. split; [reflexivity|].
    intros j segs Q. injection Q as <- _. pose proof (index_inside s t i E) as W. destruct l as [k|]; [|left; reflexivity]. specialize (Hl k eq_refl). rewrite firstn_length in Hl. lia.
  - eexists. split; [reflexivity|]. destruct (index_of s p) as [i|] eqn:E; [|apply nowhere]. pose proof (index_inside s p i E) as W. destruct (length q =? 0); [intros j segs Q; injection Q as <- _; exact W|]. destruct (suffix_ends _ _ _); [apply nowhere|]. intros j segs Q. injection Q as <- _. exact W.
  - assert (T : Forall tame (map sem ms)) by (apply Forall_forall; intros x I; apply in_map_iff in I; destruct I as [y [<- I]]; apply IH', I).
    split; intros s; [apply (any_total _ s T)|apply (proj2 (any_total _ s T) None), nowhere].
  - assert (T : Forall tame (map sem ms)) by (apply Forall_forall; intros x I; apply in_map_iff in I; destruct I as [y [<- I]]; apply IH', I).
    split; intros s; [apply (every_total _ s T)|apply (every_index_total _ T true s 0 0 []); auto].
  - assert (T : Forall (fun x => (forall s, exists b, sMatch x s = Some b) /\ (1 <= sLen x)%Z) (map sem ms)).
    { rewrite Forall_forall in *. intros x I. apply in_map_iff in I. destruct I as [y [<- I]]. split; [apply IH', I|]. pose proof (len_ge y (F y I)) as G. pose proof (LC y I) as N. pose proof (Fk y I) as K. unfold known in K. change (sLen (sem y)) with (Len y). lia. }
    split; intros s; cbn [sem sMatch sIndex].
    + unfold row_match. destruct (_ =? _)%Z; [|eauto]. apply (row_all_total _ T s 0). lia.
    + apply (row_index_total _ _ s T). apply Forall_forall. intros p I. apply in_map_iff in I. destruct I as [q [<- I]]. pose proof (range_str_lt s) as R. rewrite Forall_forall in R. apply R, I.
  - assert (Tl : otame (match l with Some x => Some (sem x) | None => None end)) by (destruct l as [x|]; [exact (proj1 (IH' x (or_intror (or_introl eq_refl))))|exact I]).
    assert (Tr : otame (match r with Some x => Some (sem x) | None => None end)) by (destruct r as [x|]; [exact (proj1 (IH' x (or_intror (or_intror eq_refl))))|exact I]).
    split; intros s; cbn [sem sMatch sIndex]; [apply btree_total; auto|]. eexists. split; [reflexivity|apply nowhere].
Qed.
(** ** Compiling *)
Definition invA (m : Matcher) : Prop := built m /\ calmA m /\ Len m <> 0%Z.
Lemma calm_leaf m : localA m -> (forall x, ~ part m x) -> calmA m.
Proof. intros L P. apply calm_iff. split; [exact L|]. intros x Q. destruct (P x Q). Qed.
Lemma calm_new v l r : calmA v -> (forall x, l = Some x -> calmA x) -> (forall x, r = Some x -> calmA x) -> forall ll rl len, calmA (MBTree v l r ll rl len).
Proof. intros. apply calm_iff. split; [exact I|]. cbn [part]. intros x [->|[E|E]]; auto. Qed.
Lemma inv_pos m : invA m -> Len m <> (-1)%Z -> (1 <= Len m)%Z.
Proof. intros [B [_ L]] K. pose proof (len_ge m B). lia. Qed.
Lemma inv_glue ms m : Forall invA ms -> glueMatchers ms = Some m -> invA m.
Proof.
  intros F G. assert (B : built m) by (apply (glue_built ms); [eapply Forall_impl; [|exact F]; intros x [Q _]; exact Q|exact G]). split; [exact B|]. revert G. unfold glueMatchers. destruct (glueMatchersAsEvery ms) as [x|] eqn:EV.
  - intros E. injection E as ->. unfold glueMatchersAsEvery in EV. destruct (length ms <=? 1); [discriminate|]. destruct ms as [|m0 ms0]; [discriminate|]. destruct (glue_kind m0) as [[sep k0]|]; [|discriminate]. destruct (glue_kinds sep (m0 :: ms0)) as [ks|] eqn:KS; [|discriminate]. cbv zeta in EV.
    assert (NA : existsb is_any ks = true -> A sep).
    { clear EV. revert ks KS. generalize dependent (m0 :: ms0). intros l Fl. induction Fl as [|x l Bx Fl IH]; intros ks KS Q; cbn [glue_kinds] in KS; [injection KS as <-; discriminate|]. destruct (glue_kind x) as [[s k]|] eqn:GK; [|discriminate]. destruct (zs_eqb s sep) eqn:ZE; [|discriminate]. destruct (glue_kinds sep l) as [ks'|]; [|discriminate]. injection KS as <-. cbn [existsb] in Q. apply orb_true_iff in Q. destruct Q as [Q|Q]; [|exact (IH ks' eq_refl Q)].
      destruct k; try discriminate. unfold zs_eqb in ZE. destruct (list_eq_dec Z.eq_dec s sep); [|discriminate]. subst s. destruct Bx as [_ [C _]]. apply calm_iff in C. destruct C as [C _]. destruct x; cbn [glue_kind localA] in GK, C; try discriminate; [injection GK as <-; exact C|destruct not; discriminate]. }
    destruct (existsb is_super ks && negb (existsb is_any ks) && negb (existsb is_one ks)) eqn:C1; [injection EV as <-; split; [apply calm_leaf; [exact I|auto]|discriminate]|].
    destruct (existsb is_any ks && negb (existsb is_super ks) && negb (existsb is_one ks)) eqn:C2.
    { injection EV as <-. split; [|discriminate]. apply calm_leaf; [|auto]. apply NA. apply andb_true_iff in C2. destruct C2 as [C2 _]. apply andb_true_iff in C2. tauto. }
    destruct ((existsb is_any ks || existsb is_super ks) && (0 <? length (filter is_one ks)) && (length sep =? 0)) eqn:C3; [injection EV as <-; split; [apply calm_leaf; [exact I|auto]|discriminate]|].
    injection EV as <-. clear - B. inversion B as [| | | | | | | | | | | | | | | |? N Fb| |]; subst. split.
    + apply calm_iff. split; [exact I|]. cbn [part]. intros y P. apply in_app_iff in P. apply calm_leaf.
      * destruct P as [P|P]; repeat match type of P with context [if ?c then _ else _] => destruct c end; cbn [In] in P; repeat destruct P as [<-|P]; try exact I; destruct P.
      * intros z. destruct P as [P|P]; repeat match type of P with context [if ?c then _ else _] => destruct c end; cbn [In] in P; repeat destruct P as [<-|P]; auto; destruct P.
    + unfold Len. cbn [sem sLen]. match goal with |- every_len (map sem ?l) <> _ => destruct l end; [contradiction|]. discriminate.
  - unfold glueMatchersAsRow. destruct (Nat.leb_spec (length ms) 1) as [L1|L1]; [discriminate|]. destruct (existsb _ ms) eqn:Q; [discriminate|]. intros E. injection E as <-.
    assert (P : Forall (fun x => 1 <= Len x)%Z ms).
    { rewrite Forall_forall in *. intros x I. apply inv_pos; [apply F, I|]. intros K. apply not_true_iff_false in Q. apply Q. apply existsb_exists. exists x. split; [exact I|]. apply Z.eqb_eq, K. }
    split.
    + apply calm_iff. cbn [localA part]. split; [eapply Forall_impl; [|exact P]; cbn; lia|]. rewrite Forall_forall in F. intros x I. apply (F x I).
    + unfold Len. cbn [sem sLen]. destruct ms as [|m1 ms]; [cbn in L1; lia|]. inversion P as [|? ? P1 P2]; subst. cbn [fold_right].
      assert (0 <= fold_right (fun m l => Len m + l) 0 ms)%Z by (clear - P2; induction P2; cbn [fold_right]; lia). unfold Len in *. lia.
Qed.
Lemma inv_minimize : forall fuel ms, Forall invA ms -> Forall invA (minimize_f fuel ms).
Proof.
  induction fuel as [|f IH]; intros ms F; [exact F|]. cbn [minimize_f].
  assert (G : forall ps b, match b with Some (d, _, _) => invA d | None => True end -> match fold_left (consider ms) ps b with Some (d, _, _) => invA d | None => True end).
  { induction ps as [|[l r] ps IHp]; intros b Hb; [exact Hb|]. cbn [fold_left]. apply IHp. unfold consider. destruct (glueMatchers _) as [g|] eqn:G; [|exact Hb].
    assert (Bg : invA g) by (apply (inv_glue _ _ (Forall_firstn' invA (r - l) _ (Forall_skipn' invA l _ F)) G)). destruct b as [[[d dl] dr]|]; [|exact Bg]. destruct (_ || _); [exact Bg|exact Hb]. }
  specialize (G (slices (length ms)) None I). destruct (fold_left _ _ _) as [[[d l] r]|]; [|exact F].
  assert (N : Forall invA (firstn l ms ++ d :: skipn r ms)) by (apply Forall_app; split; [apply Forall_firstn', F|constructor; [exact G|apply Forall_skipn', F]]). destruct (_ =? _); [exact N|apply IH, N].
Qed.
Lemma inv_btree v l r : invA v -> (forall x, l = Some x -> invA x) -> (forall x, r = Some x -> invA x) -> invA (NewBTree v l r).
Proof.
  intros V L R. split; [apply new_btree; [apply V|intros x E; apply (L x E)|intros x E; apply (R x E)]|]. split; [apply calm_new; [apply V|intros x E; apply (L x E)|intros x E; apply (R x E)]|].
  unfold NewBTree. set (ll := match l with Some _ => _ | None => _ end). set (rl := match r with Some _ => _ | None => _ end). unfold Len. cbn [sem sLen].
  assert (Hl : (-1 <= ll)%Z) by (unfold ll; destruct l as [x|]; [apply len_ge, (L x eq_refl)|lia]). assert (Hr : (-1 <= rl)%Z) by (unfold rl; destruct r as [x|]; [apply len_ge, (R x eq_refl)|lia]).
  pose proof (inv_pos v V) as P. unfold Len in *. destruct (Z.eqb_spec (sLen (sem v)) (-1)), (Z.eqb_spec ll (-1)), (Z.eqb_spec rl (-1)); cbn; try discriminate. lia.
Qed.
Lemma inv_compile : forall fuel ms m, Forall invA ms -> compileMatchers_f fuel ms = Some m -> invA m.
Proof.
  induction fuel as [|f IH]; intros ms m F E; [discriminate|]. cbn [compileMatchers_f] in E. destruct ms as [|m0 rest]; [discriminate|]. destruct rest as [|m1 rest]; [injection E as <-; inversion F; assumption|]. set (ms := m0 :: m1 :: rest) in *.
  destruct (glueMatchers ms) as [g|] eqn:G; [injection E as <-; exact (inv_glue _ _ F G)|]. destruct (longest ms 0 (-1)%Z None) as [[idx val]|] eqn:LG.
  - destruct (longest_in _ _ _ _ _ _ LG) as [H|H]; [discriminate|]. assert (Bv : invA val) by (rewrite Forall_forall in F; apply F, H).
    destruct (match firstn idx ms with [] => Some None | _ => _ end) as [l'|] eqn:EL; [|discriminate]. destruct (match skipn (S idx) ms with [] => Some None | _ => _ end) as [r'|] eqn:ER; [|discriminate]. injection E as <-. apply inv_btree; [exact Bv| |].
    + intros x ->. pose proof (Forall_firstn' invA idx _ F) as Fl. destruct (firstn idx ms) as [|y ys]; [discriminate|]. destruct (compileMatchers_f f (y :: ys)) as [z|] eqn:C; [|discriminate]. injection EL as <-. exact (IH _ _ Fl C).
    + intros x ->. pose proof (Forall_skipn' invA (S idx) _ F) as Fl. destruct (skipn (S idx) ms) as [|y ys]; [discriminate|]. destruct (compileMatchers_f f (y :: ys)) as [z|] eqn:C; [|discriminate]. injection ER as <-. exact (IH _ _ Fl C).
  - destruct (compileMatchers_f f (m1 :: rest)) as [r|] eqn:C; [|discriminate]. injection E as <-. inversion F as [|? ? F1 F2]; subst. apply inv_btree; [exact F1|discriminate|]. intros x H. injection H as <-. exact (IH _ _ F2 C).
Qed.
End Invariant.
Arguments localA A m : clear implicits.
Arguments calmA A m : clear implicits.
Arguments invA A m : clear implicits.
Notation local := (localA ascii).
Notation calm := (calmA ascii).
Notation inv := (invA ascii).
Lemma calm_optimize m : calm m -> calm (optimizeMatcher m).
Proof.
  induction m as [m IH] using part_ind. intros C. pose proof (proj1 (calm_iff m) C) as [LC PC]. assert (H : forall x, part m x -> calm (optimizeMatcher x)) by auto. clear IH. destruct m; cbn [local part optimizeMatcher] in *; try exact C.
  - destruct seps; [apply calm_leaf; [exact I|cbn; auto]|exact C].
  - destruct l as [|c [|]]; try exact C. destruct not; [exact C|]. apply calm_leaf; [exact I|cbn; auto].
  - destruct ms as [|x [|]]; try exact C. apply PC. left. reflexivity.
  - set (l' := match left with Some x => Some (optimizeMatcher x) | None => None end). set (r' := match right with Some x => Some (optimizeMatcher x) | None => None end).
    assert (HL : forall x, l' = Some x -> calm x) by (unfold l'; destruct left; [|discriminate]; intros x E; injection E as <-; apply H; auto).
    assert (HR : forall x, r' = Some x -> calm x) by (unfold r'; destruct right; [|discriminate]; intros x E; injection E as <-; apply H; auto).
    clearbody l' r'. assert (K : calm (MBTree m l' r' leftLen rightLen len)) by (apply calm_new; auto).
    destruct m; try exact K. destruct l' as [[]|], r' as [[]|]; try exact K; apply calm_leaf; try exact I; cbn [part]; auto.
    destruct (proj1 (calm_iff _) (HL _ eq_refl)) as [Q _]. exact Q.
Qed.
Lemma inv_optimize m : inv m -> inv (optimizeMatcher m).
Proof. intros [B [C L]]. destruct (optimize_built m B) as [B' E]. split; [exact B'|]. split; [apply calm_optimize, C|rewrite E; exact L]. Qed.
(** *** Texts, classes and ranges *)
Definition firm (m : Matcher) : Prop := (1 <= Len m)%Z /\ glue_kind m = None.
Lemma firm_glue ms : Forall firm ms -> glueMatchers ms = if length ms <=? 1 then None else Some (MRow ms (fold_right (fun m l => Len m + l) 0 ms)%Z).
Proof.
  intros F. unfold glueMatchers, glueMatchersAsEvery, glueMatchersAsRow. destruct (length ms <=? 1); [reflexivity|].
  assert (Q : existsb (fun m => (Len m =? -1)%Z) ms = false).
  { apply not_true_iff_false. intros E. apply existsb_exists in E. destruct E as [x [I E]]. apply Z.eqb_eq in E. rewrite Forall_forall in F. destruct (F x I). lia. }
  rewrite Q. destruct F as [|m ms [_ ->] F]; reflexivity.
Qed.
Lemma firm_row ms : Forall firm ms -> 1 < length ms -> firm (MRow ms (fold_right (fun m l => Len m + l) 0 ms)%Z).
Proof.
  intros F L. split; [|reflexivity]. unfold Len at 1. cbn [sem sLen]. destruct F as [|m ms [L1 _] F]; [cbn in L; lia|]. cbn [fold_right].
  assert (0 <= fold_right (fun m l => Len m + l) 0 ms)%Z by (clear - F; induction F as [|x l [P _] F IH]; cbn [fold_right]; lia). lia.
Qed.
Lemma firm_minimize : forall fuel ms, Forall firm ms -> Forall firm (minimize_f fuel ms).
Proof.
  induction fuel as [|f IH]; intros ms F; [exact F|]. cbn [minimize_f].
  assert (G : forall ps b, match b with Some (d, _, _) => firm d | None => True end -> match fold_left (consider ms) ps b with Some (d, _, _) => firm d | None => True end).
  { induction ps as [|[l r] ps IHp]; intros b Hb; [exact Hb|]. cbn [fold_left]. apply IHp. unfold consider. pose proof (Forall_firstn' firm (r - l) _ (Forall_skipn' firm l _ F)) as F'. rewrite (firm_glue _ F').
    match goal with |- context [?a <=? 1] => destruct (Nat.leb_spec a 1) as [L|L] end; [exact Hb|]. pose proof (firm_row _ F' L) as Bg. destruct b as [[[d dl] dr]|]; [|exact Bg]. destruct (_ || _); [exact Bg|exact Hb]. }
  specialize (G (slices (length ms)) None I). destruct (fold_left _ _ _) as [[[d l] r]|]; [|exact F].
  assert (N : Forall firm (firstn l ms ++ d :: skipn r ms)) by (apply Forall_app; split; [apply Forall_firstn', F|constructor; [exact G|apply Forall_skipn', F]]). destruct (_ =? _); [exact N|apply IH, N].
Qed.
Lemma firm_compile fuel ms m : Forall firm ms -> compileMatchers_f fuel ms = Some m -> firm m.
Proof.
  intros F E. destruct fuel as [|f]; [discriminate|]. cbn [compileMatchers_f] in E. destruct ms as [|m0 [|m1 rest]]; [discriminate|injection E as <-; inversion F; assumption|].
  rewrite (firm_glue _ F) in E. cbn [length Nat.leb] in E. injection E as <-. apply (firm_row _ F). cbn [length]. lia.
Qed.
(** *** Trees *)
Inductive okn : Node -> Prop :=
  | okn_text t : t <> [] -> okn (NText t)
  | okn_any : okn NAny
  | okn_super : okn NSuper
  | okn_single : okn NSingle
  | okn_list not cs : okn (NList not cs)
  | okn_range not lo hi : okn (NRange not lo hi)
  | okn_pattern ns : ns <> [] -> Forall okn ns -> okn (NPattern ns)
  | okn_group ch : (forall c, In c ch -> c = NNothing \/ exists ns, c = NPattern ns /\ Forall okn ns) -> settled (map children ch) -> okn (NAnyOf ch).
Lemma safe_okn n : (safe n -> okn n) /\ match n with NPattern ns => Forall safe ns -> Forall okn ns | _ => True end.
Proof.
  induction n as [|ns F|b c|b l h|t| | | |ns F] using Node_ind'.
  2:{ split; [intros H; inversion H|]. intros H. rewrite Forall_forall in *. intros n I. apply (proj1 (F n I)), H, I. }
  all: split; [|exact I]; intros H; inversion H as [| | | | | |alts A Se]; subst; try (constructor; assumption).
  constructor.
  - intros c I. right. apply in_map_iff in I. destruct I as [d [<- I]]. exists d. split; [reflexivity|]. rewrite Forall_forall in F, A. apply (proj2 (F (NPattern d) ltac:(apply in_map; exact I))), A, I.
  - rewrite map_map. cbn [children]. rewrite map_id. exact Se.
Qed.
Lemma any_len_zero ms : any_len no (map sem ms) = 0%Z -> exists a z b, ms = a ++ z :: b /\ Forall (fun x => Len x = (-1)%Z) a /\ Len z = 0%Z /\ Forall (fun x => Len x = 0%Z) b.
Proof.
  induction ms as [|m ms IH]; [discriminate|]. cbn [map any_len]. change (no =? -1)%Z with true. cbn iota. fold (Len m). intros E. destruct (Z.eq_dec (Len m) (-1)) as [N|N].
  - rewrite N in E. destruct (IH E) as [a [z [b [-> [A [Z B]]]]]]. exists (m :: a), z, b. split; [reflexivity|]. split; [constructor; assumption|]. auto.
  - destruct (any_len_value ms (Len m) N) as [V|V]; [|rewrite V in E; discriminate]. rewrite V in E. exists [], m, ms. split; [reflexivity|]. split; [constructor|]. split; [exact E|]. apply Forall_forall. intros x I. rewrite <- E. apply (any_len_known ms (Len m) N); [rewrite V; exact N|exact I].
Qed.
(** Removing duplicates keeps the order of first occurrences. *)
Lemma fold_unique_app (g : Node -> Node) l : forall acc, exists b, fold_left (fun acc c => appendIfUnique acc (g c)) l acc = acc ++ b.
Proof.
  induction l as [|c l IH]; intros acc; cbn [fold_left]; [exists []; symmetry; apply app_nil_r|]. destruct (IH (appendIfUnique acc (g c))) as [b ->]. unfold appendIfUnique. destruct (existsb _ acc); [eauto|]. exists (g c :: b). rewrite <- app_assoc. reflexivity.
Qed.
Lemma fold_unique_first (g : Node -> Node) a c b : ~ In (g c) (map g a) ->
  exists x y, fold_left (fun acc c => appendIfUnique acc (g c)) (a ++ c :: b) [] = x ++ g c :: y /\ forall n, In n x <-> In n (map g a).
Proof.
  intros N. rewrite fold_left_app. cbn [fold_left]. set (x := fold_left (fun acc c => appendIfUnique acc (g c)) a []).
  assert (X : forall n, In n x <-> In n (map g a)). { intros n. unfold x. rewrite fold_unique_in, in_map_iff. split; [intros [[]|[d [I E]]]; eauto|intros [d [E I]]; eauto]. }
  assert (U : appendIfUnique x (g c) = x ++ [g c]). { unfold appendIfUnique. destruct (existsb _ x) eqn:E; [|reflexivity]. apply existsb_exists in E. destruct E as [n [I E]]. apply node_eqb_iff in E. subst n. apply X in I. contradiction. }
  rewrite U. destruct (fold_unique_app g b (x ++ [g c])) as [y ->]. exists x, y. split; [rewrite <- app_assoc; reflexivity|exact X].
Qed.
Lemma first_split {A} (c : A) : forall a b x y, a ++ c :: b = x ++ c :: y -> ~ In c a -> ~ In c x -> a = x.
Proof.
  induction a as [|d a IH]; intros b [|e x] y E Na Nx; [reflexivity| | |].
  - injection E as -> _. destruct Nx. left. reflexivity.
  - injection E as -> _. destruct Na. left. reflexivity.
  - injection E as -> E. f_equal. apply (IH b x y E); intros I; [apply Na|apply Nx]; right; exact I.
Qed.
Lemma first_in {A} (dec : forall a b : A, {a = b} + {a <> b}) (c : A) l : In c l -> exists a b, l = a ++ c :: b /\ ~ In c a.
Proof.
  induction l as [|d l IH]; [intros []|]. intros I. destruct (dec d c) as [->|N]; [exists [], l; auto|]. destruct I as [I|I]; [contradiction|]. destruct (IH I) as [a [b [-> Na]]]. exists (d :: a), b. split; [reflexivity|]. intros [J|J]; auto.
Qed.
Lemma fold_unique_nodup (g : Node -> Node) l : forall acc, NoDup acc -> NoDup (fold_left (fun acc c => appendIfUnique acc (g c)) l acc).
Proof.
  induction l as [|c l IH]; intros acc N; cbn [fold_left]; [exact N|]. apply IH. unfold appendIfUnique. destruct (existsb _ acc) eqn:E; [exact N|].
  pose proof (Add_app (g c) acc []) as Ad. rewrite app_nil_r in Ad. apply (NoDup_Add Ad). split; [exact N|]. intros I. apply not_true_iff_false in E. apply E. apply existsb_exists. exists (g c). split; [exact I|]. apply node_eqb_iff. reflexivity.
Qed.
Lemma node_dec (a b : Node) : {a = b} + {a <> b}.
Proof. destruct (node_eqb a b) eqn:E; [left; apply node_eqb_iff, E|right; intros H; apply node_eqb_iff in H; congruence]. Defined.
Lemma factored_okn ch n' : okn (NAnyOf ch) -> minimizeTreeAnyOf ch = Some n' -> okn n'.
Proof.
  intros OK. inversion OK as [| | | | | | |? Kids [_ Set2]]; subst. unfold minimizeTreeAnyOf. destruct (forallb is_pattern ch) eqn:FP; [|discriminate]. cbn [negb]. destruct (commonChildren ch) as [cl cr] eqn:CC.
  destruct ((length cl =? 0) && (length cr =? 0)) eqn:Z0; [discriminate|].
  assert (NZ : cl <> [] \/ cr <> []). { destruct cl; [right; intros ->; discriminate|left; discriminate]. }
  destruct (common_spec ch cl cr CC NZ) as [L2 FT]. clear Z0. set (g := rest_node (length cl) (length cr)).
  set (rests := fold_left (fun acc c => appendIfUnique acc (g c)) ch []). intros E. injection E as <-.
  assert (RI : forall n, In n rests <-> exists c, In c ch /\ n = g c). { intros n. unfold rests. rewrite fold_unique_in. cbn. intuition. }
  assert (ND : NoDup rests) by (apply fold_unique_nodup; constructor).
  assert (Sh : forall c, In c ch -> c = NPattern (cl ++ children (g c) ++ cr) /\ Forall okn (cl ++ children (g c) ++ cr) /\ (g c = NNothing /\ children (g c) = [] \/ g c = NPattern (children (g c)) /\ children (g c) <> [])).
  { intros c I. rewrite forallb_forall in FP. specialize (FP c I). destruct (Kids c I) as [->|[ns [-> Fn]]]; [discriminate|].
    rewrite Forall_forall in FT. destruct (FT _ I) as [F1 F2]. pose proof (fits_split _ _ _ F1 F2) as Sp. cbn [children] in Sp.
    assert (G : children (g (NPattern ns)) = firstn (length ns - length cr - length cl) (skipn (length cl) ns)) by (unfold g, rest_node; cbn [children]; destruct (firstn _ _); reflexivity).
    rewrite G. split; [f_equal; exact Sp|]. split; [rewrite <- Sp; exact Fn|]. unfold g, rest_node. cbn [children]. destruct (firstn _ _) as [|x l]; [left; auto|right; split; [reflexivity|discriminate]]. }
  assert (Inj : forall c d, In c ch -> In d ch -> children (g c) = children (g d) -> c = d). { intros c d Ic Id E. rewrite (proj1 (Sh c Ic)), (proj1 (Sh d Id)), E. reflexivity. }
  assert (Ends : Forall okn cl /\ Forall okn cr). { destruct ch as [|c ch]; [cbn in L2; lia|]. destruct (Sh c ltac:(left; reflexivity)) as [_ [F _]]. apply Forall_app in F. destruct F as [F1 F]. apply Forall_app in F. tauto. }
  assert (Mid : forall c, In c ch -> Forall okn (children (g c))). { intros c I. destruct (Sh c I) as [_ [F _]]. apply Forall_app in F. destruct F as [_ F]. apply Forall_app in F. tauto. }
  assert (End : forall l, Forall okn l -> Forall okn (if length l =? 0 then [] else [NPattern l])). { intros l F. destruct l as [|n l]; [constructor|]. constructor; [apply okn_pattern; [discriminate|exact F]|constructor]. }
  assert (M : Forall okn (match rests with [] => [] | [NNothing] => [] | [n] => [n] | _ => [NAnyOf rests] end)).
  { destruct rests as [|n0 rs] eqn:ER; [constructor|]. destruct rs as [|n1 rs].
    - destruct (proj1 (RI n0) ltac:(left; reflexivity)) as [c [I E]]. destruct (Sh c I) as [_ [_ [[G1 G2]|[G1 G2]]]]; rewrite <- E in *; [rewrite G1; constructor|]. rewrite G1. constructor; [|constructor]. apply okn_pattern; [exact G2|]. rewrite E. apply Mid, I.
    - assert (T : okn (NAnyOf rests)); [|rewrite ER in T; destruct n0; (constructor; [exact T|constructor])]. rewrite <- ER in RI, ND. apply okn_group.
      + intros n I. apply RI in I. destruct I as [c [I ->]]. destruct (Sh c I) as [_ [_ [[G1 G2]|[G1 G2]]]]; [left; exact G1|]. right. exists (children (g c)). split; [exact G1|apply Mid, I].
      + split.
        * destruct (proj1 (RI n0) ltac:(rewrite ER; left; reflexivity)) as [c [Ic Ec]]. destruct (proj1 (RI n1) ltac:(rewrite ER; right; left; reflexivity)) as [d [Id Ed]].
          destruct (Sh c Ic) as [_ [_ [[G1 _]|[_ G2]]]]; [|exists (children (g c)); split; [apply in_map, RI; eauto|exact G2]].
          destruct (Sh d Id) as [_ [_ [[H1 _]|[_ H2]]]]; [|exists (children (g d)); split; [apply in_map, RI; eauto|exact H2]].
          exfalso. rewrite ER in ND. inversion ND as [|? ? NI _]; subst n0 n1. apply NI. left. congruence.
        * intros before c' after E Cov Nb.
          assert (Ic' : In c' (map children rests)) by (rewrite E; apply in_or_app; right; left; reflexivity). apply in_map_iff in Ic'. destruct Ic' as [n [En In_]]. apply RI in In_. destruct In_ as [c0 [I0 ->]].
          destruct (first_in node_dec c0 ch I0) as [a [b [Ech Na]]].
          assert (Ng : ~ In (g c0) (map g a)). { intros I. apply in_map_iff in I. destruct I as [d [Ed Id]]. apply Na. replace c0 with d; [exact Id|]. apply Inj; [rewrite Ech; apply in_or_app; auto|exact I0|congruence]. }
          destruct (fold_unique_first g a c0 b Ng) as [x [y [Ex Hx]]]. rewrite <- Ech in Ex. fold rests in Ex. rewrite Ex, map_app in E. cbn [map] in E. rewrite En in E.
          assert (Nx : ~ In c' (map children x)). { intros I. apply in_map_iff in I. destruct I as [n [E1 I1]]. apply Hx in I1. apply in_map_iff in I1. destruct I1 as [d [<- Id]]. apply Na. replace c0 with d; [exact Id|]. apply Inj; [rewrite Ech; apply in_or_app; auto|exact I0|congruence]. }
          pose proof (first_split c' _ _ _ _ E Nx Nb) as Eb. subst before.
          assert (Cv : covers (children c0) (map children ch)).
          { destruct Cov as [u [v [Ec Fc]]]. exists (cl ++ u), (v ++ cr). split; [rewrite (proj1 (Sh c0 I0)); cbn [children]; rewrite En, Ec, !app_assoc; reflexivity|].
            apply Forall_forall. intros d Id. apply in_map_iff in Id. destruct Id as [c [<- Ic]]. rewrite Forall_forall in Fc. destruct (Fc (children (g c)) ltac:(apply in_map, RI; eauto)) as [w Ew]. exists w. rewrite (proj1 (Sh c Ic)). cbn [children]. rewrite Ew, !app_assoc. reflexivity. }
          assert (Nc : ~ In (children c0) (map children a)).
          { intros I. apply in_map_iff in I. destruct I as [d [E1 Id]]. apply Na. replace c0 with d; [exact Id|]. assert (Idc : In d ch) by (rewrite Ech; apply in_or_app; auto). rewrite (proj1 (Sh d Idc)), (proj1 (Sh c0 I0)) in E1. cbn [children] in E1. rewrite (proj1 (Sh d Idc)), E1. symmetry. apply (Sh c0 I0). }
          destruct (Set2 (map children a) (children c0) (map children b) ltac:(rewrite Ech, map_app; reflexivity) Cv Nc) as [A0|A0].
          -- left. destruct a; [|discriminate]. destruct x as [|n x]; [reflexivity|]. destruct (proj1 (Hx n) ltac:(left; reflexivity)).
          -- right. apply Exists_exists in A0. destruct A0 as [d [Id Pd]]. apply in_map_iff in Id. destruct Id as [c [<- Ic]]. assert (Icc : In c ch) by (rewrite Ech; apply in_or_app; auto). apply Exists_exists. exists (children (g c)). split; [apply in_map, Hx, in_map, Ic|].
             rewrite (proj1 (Sh c Icc)) in Pd. cbn [children] in Pd. apply Forall_app in Pd. destruct Pd as [_ Pd]. apply Forall_app in Pd. tauto. }
  apply okn_pattern.
  - intros E. apply app_eq_nil in E. destruct E as [E1 E2]. apply app_eq_nil in E2. destruct E2 as [_ E2]. destruct NZ as [NZ|NZ]; [destruct cl|destruct cr]; (contradiction || discriminate).
  - apply Forall_app. split; [apply End, Ends|]. apply Forall_app. split; [exact M|apply End, Ends].
Qed.
Lemma range_pos t : t <> [] -> 1 <= length (range_str t).
Proof. destruct t as [|b t]; [contradiction|]. intros _. unfold range_str. cbn [length range_from]. destruct (decode (b :: t)) as [r w]. cbn [length]. lia. Qed.
Lemma map_opt_inv (g : Node -> option Matcher) (P : Matcher -> Prop) ch : forall ms, (forall c m, In c ch -> g c = Some m -> P (optimizeMatcher m)) -> map_opt (fun c => option_map optimizeMatcher (g c)) ch = Some ms -> Forall P ms.
Proof.
  induction ch as [|c ch IH]; intros ms H E; cbn [map_opt] in E; [injection E as <-; constructor|]. destruct (g c) as [m|] eqn:G; [|discriminate]. cbn [option_map] in E. destruct (map_opt _ ch) as [ys|]; [|discriminate]. injection E as <-.
  constructor; [apply (H c m); [left; reflexivity|exact G]|]. apply IH; [|reflexivity]. intros d x I. apply H. right. exact I.
Qed.
Lemma map_opt_forall2 (g : Node -> option Matcher) ch : forall ms, map_opt (fun c => option_map optimizeMatcher (g c)) ch = Some ms -> Forall2 (fun c x => exists m, g c = Some m /\ x = optimizeMatcher m) ch ms.
Proof.
  induction ch as [|c ch IH]; intros ms E; cbn [map_opt] in E; [injection E as <-; constructor|]. destruct (g c) as [m|] eqn:G; [|discriminate]. cbn [option_map] in E. destruct (map_opt _ ch) as [ys|]; [|discriminate]. injection E as <-. constructor; [eauto|auto].
Qed.
Lemma plain_firm fuel n sep m : okn n -> plain n -> compile_f fuel n sep = Some m -> firm (optimizeMatcher m).
Proof.
  destruct fuel as [|f]; [discriminate|]. intros O P E. cbn [compile_f] in E. destruct n as [|ch|not chars|not lo hi|t| | | |ch]; try destruct P.
  - destruct not; [destruct P|]. injection E as <-. destruct (runes chars) as [|c [|d l]]; try (split; [cbn; lia|reflexivity]). cbn [optimizeMatcher]. split; [|reflexivity]. unfold Len. cbn [sem sLen]. rewrite encode_one. lia.
  - injection E as <-. split; [cbn; lia|reflexivity].
  - injection E as <-. inversion O as [? N| | | | | | |]; subst. split; [|reflexivity]. unfold Len. cbn [optimizeMatcher sem sLen]. pose proof (range_pos t N). lia.
Qed.
Lemma pattern_inv f sep ns m : Forall okn ns -> (forall n m, okn n -> compile_f f n sep = Some m -> inv m) -> compile_f (S f) (NPattern ns) sep = Some m ->
  match ns with [] => m = MNothing | _ => inv m /\ (Forall plain ns -> (1 <= Len m)%Z) end.
Proof.
  intros F H E. cbn [compile_f] in E. destruct ns as [|c ch]; [injection E as <-; reflexivity|]. set (ns := c :: ch) in *. destruct (map_opt _ ns) as [ms|] eqn:Q; [|discriminate]. destruct (compileMatchers (minimizeMatchers ms)) as [x|] eqn:C; [|discriminate]. injection E as <-.
  rewrite Forall_forall in F. split.
  - apply inv_optimize. apply (inv_compile _ _ _ (inv_minimize _ _ (map_opt_inv (fun c => compile_f f c sep) inv ns ms ltac:(intros d y I G; apply inv_optimize, (H d y (F d I) G)) Q)) C).
  - intros P. rewrite Forall_forall in P. pose proof (map_opt_inv (fun c => compile_f f c sep) firm ns ms ltac:(intros d y I G; apply (plain_firm f d sep y (F d I) (P d I) G)) Q) as Fm.
    destruct (firm_compile _ _ _ (firm_minimize _ _ Fm) C) as [L _].
    assert (B : built x) by (apply (inv_compile _ _ _ (inv_minimize _ _ (map_opt_inv (fun c => compile_f f c sep) inv ns ms ltac:(intros d y I G; apply inv_optimize, (H d y (F d I) G)) Q)) C)).
    destruct (optimize_built x B) as [_ ->]. exact L.
Qed.
Lemma forall2_split {A B} (R : A -> B -> Prop) l : forall a z b, Forall2 R l (a ++ z :: b) -> exists x c y, l = x ++ c :: y /\ Forall2 R x a /\ R c z /\ Forall2 R y b.
Proof. intros a z b H. apply Forall2_app_inv_r in H. destruct H as [x [t [H1 [H2 ->]]]]. inversion H2 as [|c ? y ? Rc Ry]; subst. exists x, c, y. auto. Qed.
Lemma forall2_in_l {A B} (R : A -> B -> Prop) l m x : Forall2 R l m -> In x l -> exists y, In y m /\ R x y.
Proof. induction 1 as [|a b l m H F IH]; intros I; [destruct I|]. destruct I as [<-|I]; [exists b; cbn; auto|]. destruct (IH I) as [y [J Q]]. exists y. cbn. auto. Qed.
Lemma calm_nothing : calm MNothing.
Proof. apply calm_leaf; [exact I|auto]. Qed.
Lemma compile_inv sep : ascii sep -> forall fuel n m, okn n -> compile_f fuel n sep = Some m -> inv m.
Proof.
  intros AS. induction fuel as [fuel IHs] using (well_founded_induction lt_wf). intros n m O E. destruct fuel as [|f]; [discriminate|].
  assert (IH : forall n m, okn n -> compile_f f n sep = Some m -> inv m) by (intros; eapply IHs; eauto).
  assert (Leaf : forall x, built x -> local x -> (forall y, ~ part x y) -> Len x <> 0%Z -> inv x) by (intros x B L P N; split; [exact B|]; split; [apply calm_leaf; assumption|exact N]).
  destruct O as [t Nt| | | |not cs|not lo hi|ns Ne F|ch Kids Se].
  - injection E as <-. apply Leaf; [constructor|exact I|auto|]. unfold Len. cbn [sem sLen]. pose proof (range_pos t Nt). lia.
  - cbn [compile_f] in E. injection E as <-. destruct sep as [|s0 sep]; cbn [optimizeMatcher]; (apply Leaf; [constructor|exact I || exact AS|auto|discriminate]). discriminate.
  - injection E as <-. apply Leaf; [constructor|exact I|auto|discriminate].
  - injection E as <-. apply Leaf; [constructor|exact I|auto|discriminate].
  - cbn [compile_f] in E. injection E as <-. apply (inv_optimize (MList (runes cs) not)). apply Leaf; [constructor|exact I|auto|discriminate].
  - injection E as <-. apply Leaf; [constructor|exact I|auto|discriminate].
  - pose proof (pattern_inv f sep ns m F IH E) as P. destruct ns; [contradiction|]. apply P.
  - cbn [compile_f] in E. destruct (minimizeTreeAnyOf ch) as [n'|] eqn:MT; [apply (IH n' m); [eapply factored_okn; [|exact MT]; constructor; assumption|exact E]|].
    destruct (map_opt _ ch) as [ms|] eqn:Q; [|discriminate]. injection E as <-. pose proof (map_opt_forall2 (fun c => compile_f f c sep) ch ms Q) as F2.
    set (R := fun (c : Node) (x : Matcher) => exists m, compile_f f c sep = Some m /\ x = optimizeMatcher m) in *.
    assert (K : forall c x, In c ch -> R c x -> built x /\ calm x /\ (Len x = 0%Z -> children c = []) /\ (children c = [] -> Len x = 0%Z) /\ (Forall plain (children c) -> Len x <> (-1)%Z)).
    { intros c x Ic [m [Em ->]]. destruct f as [|f']; [discriminate|]. assert (No : forall m, m = MNothing -> built (optimizeMatcher m) /\ calm (optimizeMatcher m) /\ Len (optimizeMatcher m) = 0%Z).
      { intros y ->. cbn [optimizeMatcher]. split; [constructor|]. split; [apply calm_nothing|reflexivity]. }
      destruct (Kids c Ic) as [->|[ns [-> Fn]]].
      - injection Em as <-. destruct (No _ eq_refl) as [H1 [H2 H3]]. rewrite H3. cbn [children]. repeat split; auto. discriminate.
      - pose proof (pattern_inv f' sep ns m Fn ltac:(intros; eapply (IHs f'); eauto) Em) as P. cbn [children]. destruct ns as [|n0 ns]; [destruct (No _ P) as [H1 [H2 H3]]; rewrite H3; repeat split; auto; discriminate|].
        destruct P as [Iv Pl]. destruct (inv_optimize m Iv) as [H1 [H2 H3]]. split; [exact H1|]. split; [exact H2|]. split; [intros Z; contradiction|]. split; [discriminate|]. intros Fp. specialize (Pl Fp). destruct (optimize_built m (proj1 Iv)) as [_ ->]. lia. }
    assert (K2 : forall x, In x ms -> exists c, In c ch /\ R c x).
    { clear - F2. induction F2 as [|c x ch ms H F2 IH]; intros y I; [destruct I|]. destruct I as [<-|I]; [exists c; cbn; auto|]. destruct (IH y I) as [d [J Hd]]. exists d. cbn. auto. }
    split; [constructor; apply Forall_forall; intros x I; destruct (K2 x I) as [c [Ic Rc]]; apply (K c x Ic Rc)|]. split.
    + apply calm_iff. split; [exact I|]. cbn [part]. intros x I. destruct (K2 x I) as [c [Ic Rc]]. apply (K c x Ic Rc).
    + unfold Len. cbn [sem sLen]. intros Z. destruct (any_len_zero ms Z) as [a [z [b [-> [Fa [Lz Fb]]]]]]. apply forall2_split in F2. destruct F2 as [x [c [y [-> [F1 [Rc F3]]]]]].
      assert (Ec : children c = []) by (apply (K c z); [apply in_or_app; right; left; reflexivity|exact Rc|exact Lz]).
      destruct Se as [[d [Id Nd]] Set2]. rewrite map_app in Set2. cbn [map] in Set2.
      assert (Nx : forall e, In e x -> exists q, R e q /\ Len q = (-1)%Z). { intros e Ie. destruct (forall2_in_l R x a e F1 Ie) as [q [Iq Rq]]. rewrite Forall_forall in Fa. eauto. }
      destruct (Set2 (map children x) (children c) (map children y) eq_refl) as [X0|X0].
      * exists [], []. rewrite Ec. split; [reflexivity|]. apply Forall_forall. intros e _. exists e. rewrite app_nil_r. reflexivity.
      * rewrite Ec. intros I. apply in_map_iff in I. destruct I as [e [E1 Ie]]. destruct (Nx e Ie) as [q [Rq Lq]]. assert (Len q = 0%Z) by (apply (K e q); [apply in_or_app; auto|exact Rq|exact E1]). lia.
      * destruct x; [|discriminate]. apply Nd. apply in_map_iff in Id. destruct Id as [e [<- Ie]]. destruct Ie as [<-|Ie]; [exact Ec|]. destruct (forall2_in_l R y b e F3 Ie) as [q [Iq Rq]]. rewrite Forall_forall in Fb. apply (K e q); [right; exact Ie|exact Rq|apply Fb, Iq].
      * apply Exists_exists in X0. destruct X0 as [e' [Ie' Pe]]. apply in_map_iff in Ie'. destruct Ie' as [e [<- Ie]]. destruct (Nx e Ie) as [q [Rq Lq]]. apply (K e q); [apply in_or_app; auto|exact Rq|exact Pe|exact Lq].
Qed.
(** ** Patterns without groups: any separators *)
Notation anything := (fun _ : list Z => True).
Lemma optimize_match m : built m -> calmA anything m -> forall s, exists b, sMatch (sem (optimizeMatcher m)) s = Some b.
Proof.
  induction m as [m IH] using part_ind. intros B C. pose proof (proj1 (built_tame m B C)) as T. pose proof (proj1 (calm_iff m) C) as [_ PC].
  assert (H : forall x, part m x -> forall s, exists b, sMatch (sem (optimizeMatcher x)) s = Some b) by (intros x P; apply IH; [exact P|exact (built_part m x B P)|exact (PC x P)]). clear IH.
  destruct m; cbn [part optimizeMatcher] in *; try exact T.
  - destruct seps; [|exact T]. intros s. cbn. eauto.
  - destruct l as [|c [|]]; try exact T. destruct not; [exact T|]. intros s. cbn [sem sMatch]. eauto.
  - destruct ms as [|x [|]]; try exact T. apply (built_tame (A := anything) x); [apply (built_part _ x B); left; reflexivity|apply PC; left; reflexivity].
  - set (l' := match left with Some x => Some (optimizeMatcher x) | None => None end). set (r' := match right with Some x => Some (optimizeMatcher x) | None => None end).
    assert (Tv : tame (sem m)) by (apply (built_tame (A := anything)); [apply (built_part _ m B); left; reflexivity|apply PC; left; reflexivity]).
    assert (Tl : otame (match l' with Some x => Some (sem x) | None => None end)) by (unfold l'; destruct left as [x|]; [exact (H x (or_intror (or_introl eq_refl)))|exact I]).
    assert (Tr : otame (match r' with Some x => Some (sem x) | None => None end)) by (unfold r'; destruct right as [x|]; [exact (H x (or_intror (or_intror eq_refl)))|exact I]).
    clearbody l' r'. assert (K : forall s, exists b, sMatch (sem (MBTree m l' r' leftLen rightLen len)) s = Some b) by (intros s; apply btree_total; assumption).
    destruct m; try exact K. destruct l' as [[]|], r' as [[]|]; try exact K; intros q; cbn [sem sMatch]; eauto.
Qed.
Definition flat (n : Node) : Prop := match n with NText t => t <> [] | NAny | NSuper | NSingle | NList _ _ | NRange _ _ _ => True | _ => False end.
Lemma flat_leaf fuel n sep m : flat n -> compile_f fuel n sep = Some m -> invA anything (optimizeMatcher m).
Proof.
  assert (Leaf : forall x, built x -> localA anything x -> (forall y, ~ part x y) -> Len x <> 0%Z -> invA anything x) by (intros x B L P N; split; [exact B|]; split; [apply calm_leaf; assumption|exact N]).
  assert (Li : forall l n, invA anything (MList l n)) by (intros l x; apply Leaf; [constructor|exact I|auto|discriminate]).
  assert (Te : forall c, invA anything (MText (encode c))) by (intros c; apply Leaf; [constructor|exact I|auto|unfold Len; cbn [sem sLen]; rewrite encode_one; discriminate]).
  destruct fuel as [|f]; [discriminate|]. intros F E. cbn [compile_f] in E. destruct n as [|ch|not chars|not lo hi|t| | | |ch]; cbn [flat] in F; try contradiction; injection E as <-.
  - destruct (runes chars) as [|c [|d l]], not; cbn [optimizeMatcher]; auto.
  - apply Leaf; [constructor|exact I|auto|discriminate].
  - apply Leaf; [constructor|exact I|auto|]. unfold Len. cbn [optimizeMatcher sem sLen]. pose proof (range_pos t F). lia.
  - destruct sep; (apply Leaf; [constructor|exact I|auto|discriminate]). discriminate.
  - apply Leaf; [constructor|exact I|auto|discriminate].
  - apply Leaf; [constructor|exact I|auto|discriminate].
Qed.
Lemma flat_total fuel ns sep m : Forall flat ns -> compile_f fuel (NPattern ns) sep = Some m -> forall s, exists b, Match m s = Some b.
Proof.
  intros F E. destruct fuel as [|f]; [discriminate|]. cbn [compile_f] in E. destruct ns as [|c ch]; [injection E as <-; intros s; cbn; eauto|]. set (ns := c :: ch) in *. destruct (map_opt _ ns) as [ms|] eqn:Q; [|discriminate]. destruct (compileMatchers (minimizeMatchers ms)) as [x|] eqn:C; [|discriminate]. injection E as <-.
  rewrite Forall_forall in F. destruct (inv_compile (A := anything) _ _ _ (inv_minimize _ _ (map_opt_inv (fun c => compile_f f c sep) (invA anything) ns ms ltac:(intros d y I G; apply (flat_leaf f d sep y (F d I) G)) Q)) C) as [B [Cx _]].
  apply (optimize_match x B Cx).
Qed.
Lemma safe_total fuel ns sep m : ascii sep -> Forall safe ns -> compile_f fuel (NPattern ns) sep = Some m -> forall s, exists b, Match m s = Some b.
Proof.
  intros AS F E. assert (O : Forall okn ns) by (eapply Forall_impl; [|exact F]; intros n; apply (safe_okn n)). destruct ns as [|n ns]; [destruct fuel; [discriminate|]; injection E as <-; intros s; cbn; eauto|].
  destruct (compile_inv sep AS fuel (NPattern (n :: ns)) m ltac:(apply okn_pattern; [discriminate|exact O]) E) as [B [C _]]. apply (built_tame m B C).
Qed.
