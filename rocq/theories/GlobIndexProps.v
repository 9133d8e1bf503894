(** * C64: Index finds the leftmost place where the matcher's language occurs, and exactly the lengths with which it occurs there. *)
From Coq Require Import String.
From Coq Require Import ZArith Arith List Bool Lia Sorting.Sorted.
From Verif Require Import Utf8 GoStr GlobLex GlobMatch GlobSpec GlobFragment GlobSem GlobText GlobProps3 GlobIndexSpec GlobIndex GlobIndex2.
Import ListNotations.
Open Scope nat_scope.

(** ** The languages, on bytes and on characters *)
Lemma valid_pair (a b : list Z) : Forall valid_rune (a ++ b) -> Forall valid_rune a /\ Forall valid_rune b.
Proof. apply Forall_app. Qed.
Lemma has_prefix t b : Forall valid_rune t -> Forall valid_rune b -> (exists u, utf8 b = utf8 t ++ u) <-> exists u, b = t ++ u.
Proof. intros Vt Vb. split; [intros [u E]; destruct (utf8_prefix t b u Vt Vb E) as [b' [-> _]]; eauto|]. intros [u ->]. exists (utf8 u). apply utf8_app. Qed.
Lemma has_suffix t b : Forall valid_rune t -> Forall valid_rune b -> (exists u, utf8 b = u ++ utf8 t) <-> exists u, b = u ++ t.
Proof.
  intros Vt Vb. split; [|intros [u ->]; exists (utf8 u); apply utf8_app]. intros [u E]. destruct (list_eq_dec Z.eq_dec t []) as [->|N]; [exists b; symmetry; apply app_nil_r|].
  assert (E' : utf8 b = u ++ utf8 t ++ []) by (rewrite app_nil_r; exact E). destruct (sync b t u [] Vb Vt N E') as [x [y [Eb [_ Ey]]]]. symmetry in Ey. apply utf8_nil in Ey. subst y. rewrite app_nil_r in Eb. exists x. exact Eb.
Qed.
Lemma has_inside t b : Forall valid_rune t -> Forall valid_rune b -> (exists u v, utf8 b = u ++ utf8 t ++ v) <-> exists u v, b = u ++ t ++ v.
Proof.
  intros Vt Vb. split; [|intros [u [v ->]]; exists (utf8 u), (utf8 v); rewrite !utf8_app; reflexivity]. intros [u [v E]]. destruct (list_eq_dec Z.eq_dec t []) as [->|N]; [exists [], b; reflexivity|].
  destruct (sync b t u v Vb Vt N E) as [x [y [Eb _]]]. eauto.
Qed.
Lemma encode_utf8 c : encode c = utf8 [c].
Proof. unfold utf8. cbn. symmetry. apply app_nil_r. Qed.

(** ** Index *)
Definition one_lang (ms : list Matcher) (b : list Z) : Prop := exists m, In m ms /\ lang_of m b.
Lemma lang_anyof ms b : lang_of (MAnyOf ms) b <-> one_lang ms b.
Proof.
  unfold one_lang. cbn [lang_of]. induction ms as [|m ms IH]; [split; [intros []|intros [m [[] _]]]|]. rewrite IH. split.
  - intros [H|[m' [I H]]]; [exists m; split; [left; reflexivity|exact H]|exists m'; split; [right; exact I|exact H]].
  - intros [m' [[<-|I] H]]; [auto|right; eauto].
Qed.
Lemma kind_anyof ms : exact_kind (MAnyOf ms) <-> Forall exact_kind ms.
Proof. cbn [exact_kind]. induction ms as [|m ms IH]; [split; [constructor|exact (fun _ => I)]|]. rewrite IH. split; [intros [A B]; constructor; assumption|intros H; inversion H; subst; auto]. Qed.
Fixpoint nodes (m : Matcher) : nat := match m with MAnyOf ms => S (fold_right (fun m n => nodes m + n) 0 ms) | _ => 1 end.
Lemma nodes_in m ms : In m ms -> nodes m < nodes (MAnyOf ms).
Proof. cbn [nodes]. induction ms as [|x ms IH]; [intros []|]. cbn [fold_right]. intros [<-|I]; [lia|]. specialize (IH I). lia. Qed.
Lemma matcher_ind' (P : Matcher -> Prop) : (forall m, (forall m', match m with MAnyOf ms => In m' ms | _ => False end -> P m') -> P m) -> forall m, P m.
Proof.
  intros H m. assert (G : forall n m, nodes m <= n -> P m).
  { induction n as [|n IH]; intros x L; apply H; intros m' I; destruct x; try contradiction; pose proof (nodes_in _ _ I); [lia|]. apply IH. lia. }
  exact (G (nodes m) m (le_n _)).
Qed.
Theorem C64_exact m cs : Forall valid_rune cs -> exact_kind m -> exact_index m (lang_of m) cs.
Proof.
  intros Vc. revert m. apply (matcher_ind' (fun m => exact_kind m -> exact_index m (lang_of m) cs)). intros m IH K.
  destruct m as [t|e| |e|l not|lo hi not| |n|n|t not|t|t|t e|t e|p q|ms|ms|v l r ll rl len|ms len]; try (exfalso; exact K).
  - destruct K as [rs [Vr ->]]. apply (exact_ext cs Vc _ (fun b => b = rs)); [|apply (exact_text cs Vc rs Vr)]. intros b Vb. cbn [lang_of]. split; [intros ->; reflexivity|apply utf8_inj; assumption].
  - destruct K as [Ve Le]. exact (exact_any cs Vc e Ve Le).
  - exact (exact_super cs Vc).
  - apply (exact_one cs Vc (MSingle e) (fun r => negb (inRunes e r)) (fun c => ~ In c e)); [reflexivity|]. intros c. rewrite negb_true_iff, <- inRunes_iff. symmetry. apply not_true_iff_false.
  - apply (exact_one cs Vc (MList l not) (fun r => Bool.eqb not (negb (inRunes l r))) (fun c => if not then ~ In c l else In c l)); [reflexivity|]. intros c. pose proof (inRunes_iff l c) as R. destruct not, (inRunes l c); cbn; intuition congruence.
  - apply (exact_one cs Vc (MRange lo hi not) (fun r => negb (Bool.eqb not ((lo <=? r) && (r <=? hi))%Z)) (fun c => if not then ~ (lo <= c <= hi)%Z else (lo <= c <= hi)%Z)); [reflexivity|].
    intros c. assert (R : ((lo <=? c) && (c <=? hi))%Z = true <-> (lo <= c <= hi)%Z) by (rewrite andb_true_iff, !Z.leb_le; reflexivity). destruct not, ((lo <=? c) && (c <=? hi))%Z; cbn; intuition congruence.
  - exact (exact_nothing cs).
  - exact (exact_min cs Vc n).
  - exact (exact_max cs Vc n).
  - destruct not; cbn [exact_kind] in K.
    + destruct K as [c [Vr ->]]. rewrite encode_utf8. apply (exact_ext cs Vc _ (fun b => ~ exists u v, b = u ++ [c] ++ v)); [|apply (exact_not_contains cs Vc c Vr)].
      intros b Vb. cbn [lang_of]. rewrite (has_inside [c] b); [reflexivity|constructor; [exact Vr|constructor]|exact Vb].
    + destruct K as [rs [Vr ->]]. apply (exact_ext cs Vc _ (fun b => exists u v, b = u ++ rs ++ v)); [|apply (exact_contains cs Vc rs Vr)]. intros b Vb. cbn [lang_of]. rewrite (has_inside rs b Vr Vb). reflexivity.
  - destruct K as [rs [Vr ->]]. apply (exact_ext cs Vc _ (fun b => exists u, b = rs ++ u)); [|apply (exact_prefix cs Vc rs Vr)]. intros b Vb. cbn [lang_of]. rewrite (has_prefix rs b Vr Vb). reflexivity.
  - destruct K as [[rs [Vr ->]] [Ve Le]]. apply (exact_ext cs Vc _ (fun b => exists u, b = rs ++ u /\ Forall (fun c => ~ In c e) u)); [|apply (exact_prefix_any cs Vc rs e Vr Ve Le)]. intros b Vb. cbn [lang_of]. split.
    + intros [u [-> Fu]]. exists u. split; [apply utf8_app|]. apply valid_pair in Vb. tauto.
    + intros [u [E [Vu Fu]]]. rewrite <- utf8_app in E. apply utf8_inj in E; [eauto|exact Vb|apply Forall_app; auto].
  - destruct K as [[rs [Vr ->]] [c [Vcc [-> NI]]]]. rewrite runes_utf8 in NI by exact Vr. rewrite encode_utf8. apply (exact_ext cs Vc _ (fun b => (exists u, b = rs ++ u) /\ (exists u, b = u ++ [c]))); [|apply exact_prefix_suffix; assumption].
    intros b Vb. cbn [lang_of]. assert (V1 : Forall valid_rune [c]) by (constructor; [exact Vcc|constructor]). rewrite (has_prefix rs b Vr Vb), (has_suffix [c] b V1 Vb). reflexivity.
  - apply kind_anyof in K. rewrite Forall_forall in K. apply (exact_ext cs Vc _ (fun b => exists L, In L (map lang_of ms) /\ L b)).
    + intros b _. rewrite lang_anyof. unfold one_lang. split; [intros [L [I H]]; apply in_map_iff in I; destruct I as [m [<- I]]; eauto|]. intros [m [I H]]. exists (lang_of m). split; [apply in_map, I|exact H].
    + apply exact_anyof. clear - IH K. induction ms as [|m ms IHm]; constructor; [apply IH; [left; reflexivity|apply K; left; reflexivity]|]. apply IHm; [intros m' I; apply IH; right; exact I|intros x I; apply K; right; exact I].
Qed.
(** The substrings it finds are those Match accepts (an empty one aside: C45_empty_refuted). *)
Lemma decides_ext m (L L' : str -> Prop) s : (L s <-> L' s) -> decides m L s -> decides m L' s.
Proof. unfold decides. tauto. Qed.
Theorem C64_match_agrees m cs : Forall valid_rune cs -> cs <> [] -> exact_kind m -> (accepts m (utf8 cs) <-> lang_of m cs) /\ (rejects m (utf8 cs) <-> ~ lang_of m cs).
Proof.
  intros Vc N K. enough (D : decides m (fun _ => lang_of m cs) (utf8 cs)). { unfold decides, accepts, rejects in *. destruct D as [[A D]|[A D]]; rewrite A; split; split; intros H; try discriminate; try contradiction; try tauto; congruence. }
  revert m K. apply (matcher_ind' (fun m => exact_kind m -> decides m (fun _ => lang_of m cs) (utf8 cs))). intros m IH K.
  destruct m as [t|e| |e|l not|lo hi not| |n|n|t not|t|t|t e|t e|p q|ms|ms|v l r ll rl len|ms len]; try (exfalso; exact K).
  - exact (proj1 (C45_text_matchers t t t (utf8 cs))).
  - destruct K as [Ve Le]. eapply bool_decides; [reflexivity|]. cbn [lang_of]. pose proof (index_seps cs e Vc Ve Le) as H. destruct (IndexAnyRunes _ _) as [i|]; [|tauto]. destruct H as [a [r [b [E [_ [I _]]]]]]. split; [discriminate|]. intros F. rewrite E, Forall_app in F. destruct F as [_ F]. inversion F; subst. contradiction.
  - left. split; [reflexivity|exact I].
  - apply (C45_character_matchers e [] 0 0 cs Vc N).
  - destruct not; apply (C45_character_matchers [] l 0 0 cs Vc N).
  - destruct not; apply (C45_character_matchers [] [] lo hi cs Vc N).
  - apply (decides_ext _ (fun s => s = [])); [cbn [lang_of]; split; [apply utf8_nil|intros ->; reflexivity]|]. apply (C45_text_matchers [] [] [] (utf8 cs)).
  - apply (C45_length_matchers n cs Vc).
  - apply (C45_length_matchers n cs Vc).
  - destruct not; apply (C45_text_matchers t [] [] (utf8 cs)).
  - apply (C45_text_matchers t [] [] (utf8 cs)).
  - destruct K as [[rs [Vr ->]] [Ve Le]]. eapply bool_decides; [reflexivity|]. rewrite andb_true_iff, HasPrefix_iff. cbn [lang_of]. split.
    + intros [P F]. apply (has_prefix rs cs Vr Vc) in P. destruct P as [u Eu]. pose proof Vc as Vcs. rewrite Eu in Vcs. apply valid_pair in Vcs. rewrite Eu, app_skipn_utf8 in F. exists u. rewrite Eu, utf8_app. split; [reflexivity|]. split; [tauto|].
      pose proof (index_seps u e (proj2 Vcs) Ve Le) as H. destruct (IndexAnyRunes (utf8 u) e); [discriminate|exact H].
    + intros [u [E [Vu Fu]]]. split; [rewrite E; eauto|]. rewrite E, skipn_app, skipn_all, Nat.sub_diag. cbn [app skipn]. pose proof (index_seps u e Vu Ve Le) as H. destruct (IndexAnyRunes (utf8 u) e) as [i|]; [|reflexivity]. destruct H as [a [r [b [Eu [_ [I _]]]]]]. rewrite Eu, Forall_app in Fu. destruct Fu as [_ F]. inversion F; subst. contradiction.
  - apply (C45_text_matchers [] p q (utf8 cs)).
  - apply kind_anyof in K. rewrite Forall_forall in K. apply (decides_ext _ (fun s => exists m, In m ms /\ (fun m _ => lang_of m cs) m s)); [symmetry; apply lang_anyof|]. refine (proj1 (C45_combinations ms (fun m _ => lang_of m cs) (utf8 cs) _)). apply Forall_forall. intros m I. apply IH; [exact I|apply K, I].
Qed.
(** Suffixes: the leftmost place, with the shortest length only. *)
Theorem C64_suffix t cs : Forall valid_rune cs -> valid_utf8 t -> shortest_index (MSuffix t) (lang_of (MSuffix t)) cs.
Proof.
  intros Vc [rs [Vr ->]]. pose proof (shortest_suffix cs Vc rs Vr) as H. unfold shortest_index in *. destruct (Index _ _) as [[[i segs]|]|]; [| |exact H].
  - destruct H as [a [b [c [E [Ei [Es [[u Lb] [F G]]]]]]]]. assert (V : forall x y z : list Z, cs = x ++ y ++ z -> Forall valid_rune y) by (intros x y z Q; rewrite Q, !Forall_app in Vc; tauto). exists a, b, c. split; [exact E|]. split; [exact Ei|]. split; [exact Es|]. split; [exists (utf8 u); rewrite Lb; apply utf8_app|]. split.
    + intros a' b' c' E' L. apply (F a' b' c' E'). apply (has_suffix rs b' Vr (V _ _ _ E')). exact L.
    + intros b' c' E' L. apply (G b' c' E'). apply (has_suffix rs b' Vr); [|exact L]. apply (V a b' c'). rewrite E, E'. reflexivity.
  - intros a b c E L. apply (H a b c E). apply (has_suffix rs b Vr); [|exact L]. rewrite E, !Forall_app in Vc. tauto.
Qed.
Theorem C64_suffix_any t e cs : Forall valid_rune cs -> valid_utf8 t -> ascii e -> length e <= 1 -> shortest_index (MSuffixAny t e) (lang_of (MSuffixAny t e)) cs.
Proof.
  intros Vc [rs [Vr ->]] Ae Le. pose proof (shortest_suffix_any cs rs e Vc Vr Ae Le) as H. assert (V : forall x y z : list Z, cs = x ++ y ++ z -> Forall valid_rune y) by (intros x y z Q; rewrite Q, !Forall_app in Vc; tauto).
  assert (X : forall b, Forall valid_rune b -> (lang_of (MSuffixAny (utf8 rs) e) b <-> exists u, b = u ++ rs /\ Forall (fun c => ~ In c e) u)).
  { intros b Vb. cbn [lang_of]. split; [intros [u [E [Vu Fu]]]; rewrite <- utf8_app in E; apply utf8_inj in E; [eauto|exact Vb|apply Forall_app; auto]|]. intros [u [-> Fu]]. exists u. split; [apply utf8_app|]. apply valid_pair in Vb. tauto. }
  unfold shortest_index in *. destruct (Index _ _) as [[[i segs]|]|]; [| |exact H].
  - destruct H as [a [b [c [E [Ei [Es [Lb [F G]]]]]]]]. exists a, b, c. split; [exact E|]. split; [exact Ei|]. split; [exact Es|]. split; [apply X; [exact (V _ _ _ E)|exact Lb]|]. split.
    + intros a' b' c' E' L. apply (F a' b' c' E'). apply X; [exact (V _ _ _ E')|exact L].
    + intros b' c' E' L. apply (G b' c' E'). apply X; [|exact L]. apply (V a b' c'). rewrite E, E'. reflexivity.
  - intros a b c E L. apply (H a b c E). apply X; [exact (V _ _ _ E)|exact L].
Qed.
(** Intersections, of matchers that answer at the beginning of the string: exactly the lengths all of them find. *)
Theorem C64_every_of cs ms : ms <> [] -> Forall (fun m => prefix_index m (lang_of m) cs) ms -> prefix_index (MEveryOf ms) (lang_of (MEveryOf ms)) cs.
Proof.
  intros N F. pose proof (every_prefix cs ms (map lang_of ms) N) as H. assert (X : forall b, lang_of (MEveryOf ms) b <-> Forall (fun L : list Z -> Prop => L b) (map lang_of ms)).
  { intros b. cbn [lang_of]. clear. induction ms as [|m ms IH]; [split; [constructor|exact (fun _ => I)]|]. cbn [map]. rewrite IH. split; [intros [A B]; constructor; assumption|intros Q; inversion Q; subst; auto]. }
  assert (F2 : Forall2 (fun m L => prefix_index m L cs) ms (map lang_of ms)) by (clear - F; induction F; constructor; assumption). specialize (H F2). unfold prefix_index in *. destruct (Index _ _) as [[[i segs]|]|]; [| |exact H].
  - destruct H as [-> [Ns H]]. split; [reflexivity|]. split; [exact Ns|]. intros l. rewrite H. split; intros [b [c [E [El L]]]]; exists b, c; rewrite X in *; auto.
  - intros b c E L. apply X in L. exact (H b c E L).
Qed.
(** These answer at the beginning, or not at all. *)
Theorem C64_every_parts m cs : Forall valid_rune cs -> exact_kind m -> match m with MAny _ | MSuper | MMin _ | MMax _ | MContains _ _ | MNothing => True | _ => False end -> prefix_index m (lang_of m) cs.
Proof.
  intros Vc K H. pose proof (C64_exact m cs Vc K) as E. assert (Z0 : forall i segs, Index m (utf8 cs) = Some (Some (i, segs)) -> i = 0).
  { intros i segs. unfold Index. destruct m; try contradiction; cbn [sem sIndex]; repeat match goal with |- context [match ?x with _ => _ end] => destruct x end; intros Q; congruence. }
  unfold exact_index, prefix_index in *. destruct (Index m (utf8 cs)) as [[[i segs]|]|]; [| |exact E].
  - destruct E as [a [rest [Ec [Ei [Ns [Hs _]]]]]]. pose proof (Z0 _ _ eq_refl) as ->. split; [reflexivity|]. split; [exact Ns|]. assert (a = []) by (apply utf8_nil; destruct (utf8 a); [reflexivity|discriminate]). subst a. cbn [app] in Ec. subst rest. exact Hs.
  - intros b c Ec L. apply (E [] b c); [exact Ec|exact L].
Qed.
(** Rows of texts and one-character matchers, on ASCII. *)
#[local] Instance ascii_mode : Mode := false.
Definition row_part (m : Matcher) : Prop := match m with MText t => ascii t /\ t <> [] | MSingle _ | MList _ _ | MRange _ _ _ => True | _ => False end.
Definition row_lang (m : Matcher) : list Z -> Prop := match m with MText t => fun s => s = t | _ => lang_of m end.
Lemma part_fixed m : row_part m -> exists k, fixed k (row_lang m) (sem m) /\ Len m = Z.of_nat k.
Proof.
  destruct m as [t|e| |e|l not|lo hi not| | | | | | | | | | | | |]; intros H; try contradiction.
  - destruct H as [A Nt]. exists (length t). split; [exact (fixed_text t A Nt)|unfold Len; cbn [sem sLen]; rewrite range_len by exact A; reflexivity].
  - exists 1. split; [apply fixed_single; discriminate|reflexivity].
  - exists 1. split; [destruct not; [apply fixed_list_not|apply fixed_list]; discriminate|reflexivity].
  - exists 1. split; [destruct not; [apply fixed_range_not|apply fixed_range]; discriminate|reflexivity].
Qed.
Lemma row_lang_iff m b : row_part m -> Forall valid_rune b -> (row_lang m b <-> lang_of m b).
Proof.
  destruct m as [t|e| |e|l not|lo hi not| | | | | | | | | | | | |]; intros H Vb; try contradiction; try reflexivity. destruct H as [A _]. cbn [row_lang lang_of].
  assert (Vt : Forall valid_rune t) by (eapply Forall_impl; [|exact A]; apply valid_ascii). split; [intros ->; apply utf8_ascii, A|]. intros E. rewrite <- (utf8_ascii t A) in E. exact (utf8_inj b t Vb Vt E).
Qed.
Theorem C64_row ms cs : ms <> [] -> Forall row_part ms -> ascii cs -> exact_index (MRow ms (fold_right (fun m n => Len m + n)%Z 0%Z ms)) (lang_of (MRow ms 0)) cs.
Proof.
  intros N F A. assert (Vc : Forall valid_rune cs) by (eapply Forall_impl; [|exact A]; apply valid_ascii).
  assert (R : exists n, row_of (map sem ms) (map row_lang ms) n /\ fold_right (fun m n => Len m + n)%Z 0%Z ms = Z.of_nat n /\ 1 <= n + (if length ms =? 0 then 1 else 0)).
  { clear N. induction F as [|m ms Fm F IH]; [exists 0; split; [constructor|split; [reflexivity|cbn; lia]]|]. destruct IH as [n [R [E _]]]. destruct (part_fixed m Fm) as [k [Fk Ek]]. exists (k + n). split; [constructor; assumption|]. cbn [fold_right length Nat.eqb]. rewrite E, Ek. split; [lia|]. destruct Fk as [_ [K _]]. lia. }
  destruct R as [n [R [E L]]]. rewrite E. apply (exact_ext cs Vc _ (catL (map row_lang ms))); [|apply (exact_fixed _ n); [apply fixed_row; [exact R|destruct ms; [contradiction|cbn in L; lia]]|exact A]].
  clear - F. induction F as [|m ms Fm F IH]; intros b Vb; [reflexivity|]. cbn [lang_of map catL] in *. split; intros [u [v [-> [H1 H2]]]]; apply valid_pair in Vb; exists u, v; (split; [reflexivity|]); (split; [apply row_lang_iff; tauto|apply IH; tauto]).
Qed.
(** A BTree never finds anything. *)
Theorem C64_btree_refuted v l r ll rl len s : Index (MBTree v l r ll rl len) s = Some None.
Proof. reflexivity. Qed.
(** Limits of the exact kinds: a suffix has longer occurrences that are not listed; "does not contain" of two characters misses a length;
    with two separators the first in the list decides, not the first in the string; a suffix inside the prefix; an intersection whose members answer at different places. *)
Theorem C64_limits_refuted :
  (Index (MSuffix (lit "a")) (lit "aa") = Some (Some (0, [1])) /\ lang_of (MSuffix (lit "a")) (lit "aa"))
  /\ (Index (MContains (lit "ab") true) (lit "ab") = Some (Some (0, [0])) /\ lang_of (MContains (lit "ab") true) (lit "a"))
  /\ (Index (MAny (lit "/.")) (lit "a.b/") = Some (Some (0, [0; 1; 2; 3])) /\ ~ lang_of (MAny (lit "/.")) (lit "a.b"))
  /\ (Index (MPrefixSuffix (lit "abc") (lit "b")) (lit "abc") = Some (Some (0, [2])) /\ ~ lang_of (MPrefixSuffix (lit "abc") (lit "b")) (lit "ab"))
  /\ (Index (MEveryOf [MMin 2; MPrefix (lit "b")]) (lit "abc") = Some (Some (1, [1; 2])) /\ ~ lang_of (MEveryOf [MMin 2; MPrefix (lit "b")]) (lit "b")).
Proof.
  repeat split; try reflexivity.
  - exists (lit "a"). reflexivity.
  - intros [u [v E]]. destruct u as [|x [|y u]]; discriminate.
  - intros F. inversion F as [|? ? _ F2]; subst. inversion F2 as [|? ? H _]; subst. apply H. right. left. reflexivity.
  - intros [[u E] _]. discriminate.
  - intros [[H _] _]. cbn in H. lia.
Qed.

(** ** Non-vacuity *)
Definition small (c : Z) : bool := ((0 <=? c) && (c <=? 55295))%Z.
Lemma small_valid l : forallb small l = true -> Forall valid_rune l.
Proof.
  intros H. apply Forall_forall. intros c I. rewrite forallb_forall in H. specialize (H c I). unfold small in H. rewrite andb_true_iff, !Z.leb_le in H. split; [lia|]. unfold surrogate. apply andb_false_iff. left. apply Z.leb_gt. lia.
Qed.
(** {ab*,é?}-like alternatives: valid characters, an exact kind, and what is found. *)
Definition ex_alt : Matcher := MAnyOf [MPrefix (lit "ab"); MText (encode 233 ++ lit "x"); MList (lit "b") false].
Example ex_exact : exact_kind ex_alt /\ Forall valid_rune [120; 233; 120; 98; 97; 98; 99]%Z
  /\ Index ex_alt (utf8 [120; 233; 120; 98; 97; 98; 99]%Z) = Some (Some (1, [3]))
  /\ Index ex_alt (utf8 [120; 98; 97; 98; 233]%Z) = Some (Some (1, [1])) /\ Index ex_alt (utf8 [97; 98; 233]%Z) = Some (Some (0, [2; 4])).
Proof.
  split; [|split; [|split; [|split]]]; [| |vm_compute; reflexivity..].
  - repeat split; try exact I; [exists [97; 98]%Z|exists [233; 120]%Z]; (split; [apply small_valid; reflexivity|reflexivity]).
  - apply small_valid. reflexivity.
Qed.
Example ex_every : prefix_index (MEveryOf [MMin 2; MContains (lit "c") true]) (lang_of (MEveryOf [MMin 2; MContains (lit "c") true])) (lit "abbc")
  /\ Index (MEveryOf [MMin 2; MContains (lit "c") true]) (lit "abbc") = Some (Some (0, [2; 3])).
Proof.
  assert (V : Forall valid_rune (lit "abbc")) by (apply small_valid; reflexivity). split; [|reflexivity]. apply C64_every_of; [discriminate|]. constructor; [|constructor; [|constructor]]; apply C64_every_parts; try exact V; try exact I.
  cbn [exact_kind]. exists 99%Z. split; [split; [lia|reflexivity]|reflexivity].
Qed.
Example ex_row : Forall row_part [MText (lit "ab"); MSingle (lit "/"); MRange 97 99 false] /\ Index (MRow [MText (lit "ab"); MSingle (lit "/"); MRange 97 99 false] 4) (lit "ab/bab/abzb") = Some (Some (7, [4])).
Proof. split; [|reflexivity]. constructor; [split; [|discriminate]|constructor; [exact I|constructor; [exact I|constructor]]]. apply Forall_forall. intros c [<-|[<-|[]]]; (split; vm_compute; [discriminate|reflexivity]). Qed.
Example ex_suffix_any : Index (MSuffixAny (lit "ab") (lit "/")) (lit "x/yab/ab") = Some (Some (2, [3])).
Proof. reflexivity. Qed.
Print Assumptions C64_exact.
Print Assumptions C64_match_agrees.
Print Assumptions C64_suffix.
Print Assumptions C64_suffix_any.
Print Assumptions C64_every_of.
Print Assumptions C64_every_parts.
Print Assumptions C64_row.
Print Assumptions C64_btree_refuted.
Print Assumptions C64_limits_refuted.
