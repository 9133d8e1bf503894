(** * C46 on arbitrary strings: patterns of texts and stars. *)
From Coq Require Import String.
From Coq Require Import ZArith Arith List Bool Lia.
From Verif Require Import Utf8 GoStr GlobLex GlobMatch GlobCompile GlobSpec GlobFragment GlobTextSpec GlobParse GlobFactor GlobSem GlobGlue GlobLeaf GlobSeq GlobText GlobProps3.
Import ListNotations.
Open Scope nat_scope.

Definition elem (seps : list Z) (n : Node) : tel := match n with NText t => ET t | NAny => match seps with [] => ES | _ => EA seps end | _ => ES end.
Lemma elem_T seps n : text_or_star n -> (isT (elem seps n) = false <-> star n).
Proof. unfold star. destruct n; cbn; try contradiction; intros _; try (destruct seps; cbn); intuition congruence. Qed.
Lemma elem_alternate seps ns : Forall text_or_star ns -> alternating ns -> alternate (map (elem seps) ns).
Proof.
  intros F. induction F as [|n ns T F IH]; intros A; [exact I|]. destruct F as [|n' ns T' F]; [exact I|]. destruct A as [K A]. cbn [map alternate]. split; [|apply IH, A].
  pose proof (elem_T seps n T) as E. pose proof (elem_T seps n' T') as E'. destruct K as [[K1 K2]|[K1 K2]].
  - rewrite (proj2 E K1). destruct (isT (elem seps n')) eqn:X; [reflexivity|exfalso; apply K2, E'; reflexivity].
  - rewrite (proj2 E' K2). destruct (isT (elem seps n)) eqn:X; [reflexivity|exfalso; apply K1, E; reflexivity].
Qed.
Lemma elem_ok seps n : ascii seps -> text_or_star n -> okel (elem seps n).
Proof. intros A. destruct n; cbn; try contradiction; try tauto. intros _. destruct seps; [exact I|]. split; [exact A|discriminate]. Qed.
Lemma runes_any seps s : ascii seps -> (Forall (fun c => ~ In c seps) (runes s) <-> Forall (fun c => ~ In c seps) s).
Proof.
  intros A. assert (K : forall l, Forall (fun c => ~ In c seps) l <-> filter (inRunes seps) l = []).
  { induction l as [|x l IH]; [split; [reflexivity|constructor]|]. cbn [filter]. destruct (inRunes seps x) eqn:E.
    - apply inRunes_iff in E. split; [intros H; inversion H; contradiction|discriminate].
    - rewrite <- IH. split; [intros H; inversion H; assumption|intros H; constructor; [|exact H]]. intros I0. apply inRunes_iff in I0. congruence. }
  rewrite !K, runes_ascii; [reflexivity|]. intros b B. apply not_true_iff_false. rewrite inRunes_iff. intros I0. unfold ascii in A. rewrite Forall_forall in A. specialize (A b I0). lia.
Qed.
Lemma elem_lan seps n s : ascii seps -> text_or_star n -> (den seps n s <-> lan (elem seps n) s).
Proof.
  intros A. destruct n as [|ns|b cs|b lo hi|t| | | |ns]; cbn [text_or_star]; try contradiction; intros _; cbn [den elem]; try tauto.
  - rewrite (runes_any seps s A). destruct seps; [|reflexivity]. cbn. split; [tauto|]. intros _. apply Forall_forall. intros ? _ [].
Qed.
Lemma elem_lang seps ns : ascii seps -> Forall text_or_star ns -> forall s, cat seps ns s <-> lang (map (elem seps) ns) s.
Proof.
  intros A F. induction F as [|n ns T F IH]; intros s; [reflexivity|]. cbn [cat map lang]. split; intros [u [v [E [D C]]]]; exists u, v; (split; [exact E|]); (split; [apply (elem_lan seps n u A T); exact D|apply IH; exact C]).
Qed.
Lemma elem_mat f seps n : text_or_star n -> option_map optimizeMatcher (compile_f (S f) n seps) = Some (mat (elem seps n)).
Proof. destruct n; cbn; try contradiction; try reflexivity. intros _. destruct seps; reflexivity. Qed.
Lemma elems_mat f seps ns : Forall text_or_star ns -> map_opt (fun c => option_map optimizeMatcher (compile_f (S f) c seps)) ns = Some (map mat (map (elem seps) ns)).
Proof. intros F. induction F as [|n ns T F IH]; [reflexivity|]. cbn [map_opt]. rewrite elem_mat, IH by assumption. reflexivity. Qed.
Lemma pattern_compiled seps ns : ns <> [] -> Forall text_or_star ns -> alternating ns -> compile_f 2 (NPattern ns) seps = option_map optimizeMatcher (compileMatchers (map mat (map (elem seps) ns))).
Proof.
  intros Ne F A. assert (E : compile_f 2 (NPattern ns) seps = match map_opt (fun c => option_map optimizeMatcher (compile_f 1 c seps)) ns with Some ms => option_map optimizeMatcher (compileMatchers (minimizeMatchers ms)) | None => None end) by (destruct ns; [contradiction|reflexivity]).
  rewrite E, elems_mat by exact F. rewrite minimize_same by (apply elem_alternate; assumption). reflexivity.
Qed.
Lemma squeezed_between seps ns : squeezed (map (elem seps) ns) -> Forall text_or_star ns -> exists p q, text_star_text seps ns p q.
Proof.
  intros [p [q E]] F. destruct ns as [|a [|b [|c [|d ns]]]]; try discriminate E. cbn [map] in E. injection E as E1 E2 E3. exists p, q, b.
  inversion F as [|? ? Ta F1]; subst. inversion F1 as [|? ? Tb F2]; subst. inversion F2 as [|? ? Tc _]; subst.
  assert (Ea : a = NText p) by (destruct a; cbn in *; try contradiction; try discriminate; [congruence|destruct seps; discriminate]). assert (Ec : c = NText q) by (destruct c; cbn in *; try contradiction; try discriminate; [congruence|destruct seps; discriminate]).
  subst. split; [|reflexivity]. destruct b; cbn in *; try contradiction; try discriminate; [right; destruct seps; [auto|discriminate]|left; reflexivity].
Qed.
(** Texts of any characters and stars, alternating (and not text ** text): the glob accepts exactly the strings the pattern stands for, of all
    strings, valid UTF-8 or not, and never panics. *)
Theorem C46_texts_and_stars p seps ns m : Parse p = POk (NPattern ns) -> Globs p seps m -> ascii seps -> Forall text_or_star ns -> alternating ns ->
  (forall a b, ~ text_star_text seps ns a b) -> forall s, decides m (den seps (NPattern ns)) s.
Proof.
  intros P G As F A NB s. destruct ns as [|n0 ns0].
  { rewrite (glob_of p seps m (NPattern []) 1 MNothing P G eq_refl). apply all_right. exists (eqs s []). split; [reflexivity|]. rewrite eqs_iff, den_pattern. reflexivity. }
  set (ns := n0 :: ns0) in *. assert (Ne : ns <> []) by discriminate. clearbody ns. clear n0 ns0. set (xs := map (elem seps) ns).
  assert (Fx : Forall okel xs) by (unfold xs; apply Forall_map; eapply Forall_impl; [|exact F]; intros n T; apply elem_ok; assumption).
  destruct (tcompile (length (map mat xs)) xs) as [m0 [C [_ H]]]; [rewrite map_length; lia|unfold xs; destruct ns; [contradiction|discriminate]|exact Fx|apply elem_alternate; assumption|].
  pose proof (pattern_compiled seps ns Ne F A) as PC. fold xs in PC. unfold compileMatchers in PC. rewrite C in PC. cbn [option_map] in PC. rewrite (glob_of _ _ _ _ _ _ P G PC).
  destruct H as [_ R]; [intros Q; destruct (squeezed_between seps ns Q F) as [x [y T]]; exact (NB x y T)|]. destruct (R s) as [b [M Hb]]. apply (bool_decides _ _ _ b M). rewrite Hb, den_pattern. symmetry. apply elem_lang; assumption.
Qed.
Theorem C46_texts_and_stars_written p seps ns m : writes_seq false ns p -> Globs p seps m -> ascii seps -> Forall text_or_star ns -> alternating ns ->
  (forall a b, ~ text_star_text seps ns a b) -> forall s, decides m (den seps (NPattern ns)) s.
Proof. intros W. apply C46_texts_and_stars. apply parse_written. exists ns. auto. Qed.
(** text ** text, of any characters: exactly the overlapping strings are accepted wrongly. *)
Theorem C46_text_star_text p seps ns m a b : Parse p = POk (NPattern ns) -> Globs p seps m -> text_star_text seps ns a b ->
  forall s, decides m (fun s => (exists u, s = a ++ u) /\ (exists u, s = u ++ b)) s /\ (den seps (NPattern ns) s <-> accepts m s /\ length a + length b <= length s).
Proof.
  intros P G [n [Wn ->]] s. assert (C : compile_f 2 (NPattern [NText a; n; NText b]) seps = Some (MPrefixSuffix a b)).
  { assert (En : option_map optimizeMatcher (compile_f 1 n seps) = Some MSuper) by (destruct Wn as [->|[-> ->]]; reflexivity).
    assert (E : compile_f 2 (NPattern [NText a; n; NText b]) seps = option_map optimizeMatcher (compileMatchers (minimizeMatchers (map mat [ET a; ES; ET b])))).
    { change (compile_f 2 (NPattern [NText a; n; NText b]) seps) with (match map_opt (fun c => option_map optimizeMatcher (compile_f 1 c seps)) [NText a; n; NText b] with Some ms => option_map optimizeMatcher (compileMatchers (minimizeMatchers ms)) | None => None end).
      cbn [map_opt]. rewrite En. reflexivity. }
    rewrite E. assert (AL : alternate [ET a; ES; ET b]) by (cbn; auto). rewrite minimize_same by exact AL. unfold compileMatchers. cbn [map length compileMatchers_f]. pose proof (glue_none _ AL) as GN. cbn [map] in GN. rewrite GN.
    cbn [longest mat]. unfold Len. cbn [sem sLen]. change (no =? -1)%Z with true. cbn [negb andb].
    assert (Z0 : forall k, (Z.of_nat k =? -1)%Z = false) by (intros k; apply Z.eqb_neq; lia). rewrite !Z0. cbn [negb andb]. rewrite (proj2 (Z.leb_le (-1) _)) by lia.
    destruct (Z.of_nat (length (range_str a)) <=? Z.of_nat (length (range_str b)))%Z; cbn [firstn skipn].
    - pose proof (glue_none [ET a; ES] ltac:(cbn; auto)) as G2. cbn [map mat] in G2. rewrite G2. cbn [longest]. unfold Len. cbn [sem sLen]. change (no =? -1)%Z with true. rewrite Z0. cbn [negb andb]. rewrite (proj2 (Z.leb_le (-1) _)) by lia. cbn [firstn skipn]. reflexivity.
    - pose proof (glue_none [ES; ET b] ltac:(cbn; auto)) as G2. cbn [map mat] in G2. rewrite G2. cbn [longest]. unfold Len. cbn [sem sLen]. change (no =? -1)%Z with true. rewrite Z0. cbn [negb andb]. rewrite (proj2 (Z.leb_le (-1) _)) by lia. cbn [firstn skipn]. reflexivity. }
  rewrite (glob_of _ _ _ _ _ _ P G C).
  assert (D : decides (MPrefixSuffix a b) (fun s => (exists u, s = a ++ u) /\ (exists u, s = u ++ b)) s) by apply (C45_text_matchers a a b s). split; [exact D|].
  rewrite den_pattern. cbn [cat den]. assert (AC : accepts (MPrefixSuffix a b) s <-> (exists u, s = a ++ u) /\ (exists u, s = u ++ b)).
  { destruct D as [[A D]|[R D]]; [tauto|]. split; [intros A; unfold accepts, rejects in *; congruence|contradiction]. }
  rewrite AC. split.
  - intros [u [v [-> [-> [x [y [-> [_ [z [w [-> [-> ->]]]]]]]]]]]]. rewrite app_nil_r. split; [split; [eauto|exists (a ++ x); rewrite app_assoc; reflexivity]|]. rewrite !app_length. lia.
  - intros [[[u ->] [v E]] L]. rewrite app_length in L. exists a, u. split; [reflexivity|]. split; [reflexivity|].
    assert (Lv : length a <= length v) by (apply (f_equal (@length Z)) in E; rewrite !app_length in E; lia).
    assert (Ev : v = a ++ skipn (length a) v). { rewrite <- (firstn_skipn (length a) v) at 1. f_equal. apply (f_equal (firstn (length a))) in E. rewrite !firstn_app, firstn_all, Nat.sub_diag in E. replace (length a - length v) with 0 in E by lia. cbn [firstn] in E. rewrite !app_nil_r in E. symmetry. exact E. }
    rewrite Ev, <- app_assoc in E. apply app_inv_head in E. exists (skipn (length a) v), b. split; [exact E|]. split; [destruct Wn as [->|[-> ->]]; cbn; [exact I|apply Forall_forall; intros ? _ []]|]. exists b, []. rewrite app_nil_r. auto.
Qed.
Print Assumptions C46_texts_and_stars.
Print Assumptions C46_texts_and_stars_written.
Print Assumptions C46_text_star_text.
(** *é*user:*, on strings that are not valid UTF-8 too. *)
Definition c46_stars : list Node := [NAny; NText (encode 233); NAny; NText (lit "user:"); NAny].
Example C46_case_stars : Parse (lit "*" ++ encode 233 ++ lit "*user:*") = POk (NPattern c46_stars) /\ Forall text_or_star c46_stars /\ alternating c46_stars /\ (forall a b, ~ text_star_text [] c46_stars a b)
  /\ exists m, Globs (lit "*" ++ encode 233 ++ lit "*user:*") [] m /\ accepts m ([255; 195; 169; 128]%Z ++ lit "user:bob") /\ rejects m ([195]%Z ++ lit "user:" ++ [169]%Z).
Proof.
  assert (V : forall rs, forallb (fun r => (0 <=? r) && (r <=? 55295))%Z rs = true -> valid_utf8 (utf8 rs)).
  { intros rs H. exists rs. split; [|reflexivity]. apply Forall_forall. intros r I0. rewrite forallb_forall in H. specialize (H r I0). apply andb_true_iff in H. rewrite !Z.leb_le in H. split; [lia|]. apply not_true_iff_false. intros X. apply in_range_true in X. lia. }
  split; [vm_compute; reflexivity|]. split.
  - repeat constructor; try discriminate; [exact (V [233%Z] eq_refl)|exact (V (lit "user:") eq_refl)].
  - split; [|split].
    + cbn. unfold kinds_differ, star. repeat split; try (left; split; [intuition congruence|intros [?|?]; discriminate]); right; (split; [intros [?|?]; discriminate|intuition congruence]).
    + intros a b [n [_ E]]. discriminate E.
    + eexists. split; [exists (NPattern c46_stars), 20; split; vm_compute; reflexivity|split; vm_compute; reflexivity].
Qed.
