(** * C45, C46: what matchers and compiled globs accept. *)
From Coq Require Import String.
From Coq Require Import ZArith Arith List Bool Lia.
From Verif Require Import Utf8 GoStr GlobLex GlobMatch GlobCompile GlobSpec GlobFragment GlobParse GlobFactor GlobSem GlobGlue GlobLeaf GlobSeq GlobAlt.
Import ListNotations.
Open Scope nat_scope.
#[local] Instance ascii_mode : Mode := false.

(** ** C45 *)
Lemma bool_decides m (L : str -> Prop) s b : Match m s = Some b -> (b = true <-> L s) -> decides m L s.
Proof. intros M H. apply right_decides. exists b. auto. Qed.
Lemma all_right m L s : (exists b, Match m s = Some b /\ (b = true <-> L s)) -> decides m L s.
Proof. intros [b [M H]]. exact (bool_decides m L s b M H). Qed.
Lemma contains_iff s t : (match index_of s t with Some _ => true | None => false end) = true <-> exists u v, s = u ++ t ++ v.
Proof.
  pose proof (index_of_spec s t) as H. destruct (index_of s t) as [i|].
  - split; [intros _|reflexivity]. destruct H as [_ [H _]]. exists (firstn i s), (skipn (i + length t) s). rewrite <- H at 1. apply split3.
  - split; [discriminate|]. intros [u [v ->]]. exfalso. apply (H (length u)); [rewrite app_length; lia|]. apply sub_app3.
Qed.
(** Matchers about the bytes of the string, on every string. *)
Theorem C45_text_matchers t p q s :
  decides (MText t) (fun s => s = t) s
  /\ decides MSuper (fun _ => True) s
  /\ decides MNothing (fun s => s = []) s
  /\ decides (MPrefix t) (fun s => exists u, s = t ++ u) s
  /\ decides (MSuffix t) (fun s => exists u, s = u ++ t) s
  /\ decides (MContains t false) (fun s => exists u v, s = u ++ t ++ v) s
  /\ decides (MContains t true) (fun s => ~ exists u v, s = u ++ t ++ v) s
  /\ decides (MPrefixSuffix p q) (fun s => (exists u, s = p ++ u) /\ (exists u, s = u ++ q)) s.
Proof.
  repeat match goal with |- _ /\ _ => split end.
  - eapply bool_decides; [reflexivity|]. rewrite eqs_iff. split; congruence.
  - eapply bool_decides; [reflexivity|]. tauto.
  - eapply bool_decides; [reflexivity|]. apply eqs_iff.
  - eapply bool_decides; [reflexivity|]. apply HasPrefix_iff.
  - eapply bool_decides; [reflexivity|]. apply hassuffix_iff.
  - eapply bool_decides; [reflexivity|]. rewrite <- contains_iff. destruct (match index_of s t with Some _ => true | None => false end); cbn; split; congruence.
  - eapply bool_decides; [reflexivity|]. rewrite <- contains_iff. destruct (match index_of s t with Some _ => true | None => false end); cbn; split; congruence.
  - eapply bool_decides; [reflexivity|]. rewrite andb_true_iff, HasPrefix_iff, hassuffix_iff. reflexivity.
Qed.
(** Matchers about one character, on every valid UTF-8 string that is not empty; on the empty string ? and negated classes match (unless the
    replacement character is excluded) and the others do not. *)
Lemma one_rune_utf8 p cs : Forall valid_rune cs -> cs <> [] -> (one_rune p (utf8 cs) = true <-> exists c, cs = [c] /\ p c = true).
Proof.
  intros V N. destruct V as [|c cs Vc V]; [contradiction|]. unfold one_rune, utf8. cbn [map concat]. rewrite decode_encode by exact Vc. rewrite app_length. destruct cs as [|c' cs].
  - cbn [map concat length]. rewrite Nat.add_0_r, Nat.ltb_irrefl. split; [eauto|]. intros [d [E H]]. injection E as <-. exact H.
  - cbn [map concat]. pose proof (encode_nonempty c') as NE. rewrite app_length. destruct (encode c') as [|b e]; [contradiction|]. cbn [length]. rewrite (proj2 (Nat.ltb_lt _ _)) by lia. split; [discriminate|]. intros [d [E _]]. discriminate.
Qed.
Theorem C45_character_matchers seps l lo hi cs : Forall valid_rune cs -> cs <> [] ->
  decides (MSingle seps) (fun _ => exists c, cs = [c] /\ ~ In c seps) (utf8 cs)
  /\ decides (MList l false) (fun _ => exists c, cs = [c] /\ In c l) (utf8 cs)
  /\ decides (MList l true) (fun _ => exists c, cs = [c] /\ ~ In c l) (utf8 cs)
  /\ decides (MRange lo hi false) (fun _ => exists c, cs = [c] /\ (lo <= c <= hi)%Z) (utf8 cs)
  /\ decides (MRange lo hi true) (fun _ => exists c, cs = [c] /\ ~ (lo <= c <= hi)%Z) (utf8 cs).
Proof.
  intros V N. assert (K : forall m p (L : Z -> Prop), (forall s, Match m s = Some (one_rune p s)) -> (forall c, p c = true <-> L c) -> decides m (fun _ => exists c, cs = [c] /\ L c) (utf8 cs)).
  { intros m p L M H. eapply bool_decides; [apply M|]. rewrite one_rune_utf8 by assumption. split; intros [c [E Hc]]; exists c; (split; [exact E|]); apply H, Hc. }
  assert (R : forall c, ((lo <=? c) && (c <=? hi))%Z = true <-> (lo <= c <= hi)%Z) by (intros c; rewrite andb_true_iff, !Z.leb_le; reflexivity).
  repeat match goal with |- _ /\ _ => split end; (eapply K; [reflexivity|]); intros c; cbn [negb].
  - rewrite negb_true_iff, <- inRunes_iff. symmetry. apply not_true_iff_false.
  - rewrite eqb_true_iff, inRunes_iff. reflexivity.
  - rewrite eqb_true_iff, <- inRunes_iff. symmetry. apply not_true_iff_false.
  - rewrite eqb_true_iff, <- R. reflexivity.
  - rewrite eqb_true_iff, <- R. symmetry. apply not_true_iff_false.
Qed.
Theorem C45_empty_refuted seps l lo hi : ~ In RuneError seps -> ~ In RuneError l -> (hi < RuneError)%Z ->
  accepts (MSingle seps) [] /\ accepts (MList l true) [] /\ accepts (MRange lo hi true) [] /\ rejects (MList l false) [] /\ rejects (MRange lo hi false) [].
Proof.
  intros A B C. unfold accepts, rejects, Match. cbn [sem sMatch]. unfold one_rune. cbn [decode length Nat.ltb Nat.leb].
  assert (E1 : inRunes seps RuneError = false) by (apply not_true_iff_false; rewrite inRunes_iff; exact A). assert (E2 : inRunes l RuneError = false) by (apply not_true_iff_false; rewrite inRunes_iff; exact B).
  assert (E3 : ((lo <=? RuneError) && (RuneError <=? hi))%Z = false) by (rewrite (proj2 (Z.leb_gt RuneError hi)) by exact C; apply andb_false_r).
  rewrite E1, E2, E3. repeat split; reflexivity.
Qed.
(** Matchers about sequences of characters: separators are ASCII, the strings arbitrary. *)
Theorem C45_any_matchers t seps s : ascii seps ->
  decides (MAny seps) (fun s => Forall (fun c => ~ In c seps) s) s
  /\ decides (MPrefixAny t seps) (fun s => exists u, s = t ++ u /\ Forall (fun c => ~ In c seps) u) s
  /\ decides (MSuffixAny t seps) (fun s => exists u, s = u ++ t /\ Forall (fun c => ~ In c seps) u) s.
Proof.
  intros Ae. repeat match goal with |- _ /\ _ => split end.
  - eapply bool_decides; [reflexivity|]. rewrite <- (any_none s seps Ae). destruct (IndexAnyRunes s seps); split; congruence.
  - eapply bool_decides; [reflexivity|]. rewrite andb_true_iff, HasPrefix_iff. assert (K : forall u, skipn (length t) (t ++ u) = u) by (intros u; rewrite skipn_app, skipn_all, Nat.sub_diag; reflexivity). split.
    + intros [[u ->] H]. exists u. split; [reflexivity|]. rewrite K in H. apply (any_none u seps Ae). destruct (IndexAnyRunes u seps); [discriminate|reflexivity].
    + intros [u [-> H]]. split; [exists u; reflexivity|]. rewrite K. apply (any_none u seps Ae) in H. rewrite H. reflexivity.
  - eapply bool_decides; [reflexivity|]. rewrite andb_true_iff, hassuffix_iff. split.
    + intros [[u ->] H]. exists u. split; [reflexivity|]. rewrite firstn_len_app in H. apply (any_none u seps Ae). destruct (IndexAnyRunes u seps); [discriminate|reflexivity].
    + intros [u [-> H]]. split; [exists u; reflexivity|]. rewrite firstn_len_app. apply (any_none u seps Ae) in H. rewrite H. reflexivity.
Qed.
(** Lengths, in characters: Min n wants at least n characters, and always one. *)
Theorem C45_length_matchers n cs : Forall valid_rune cs ->
  decides (MMin n) (fun _ => n <= length cs /\ 1 <= length cs) (utf8 cs) /\ decides (MMax n) (fun _ => length cs <= n) (utf8 cs).
Proof.
  intros V. assert (E : length (range_str (utf8 cs)) = length cs) by (rewrite <- (runes_utf8 cs V) at 2; unfold runes; rewrite map_length; reflexivity). split; eapply bool_decides; try reflexivity; rewrite E.
  - rewrite andb_true_iff, Nat.ltb_lt, Nat.leb_le. lia.
  - apply Nat.leb_le.
Qed.
(** Combinations, of matchers that decide (and so do not panic). *)
Theorem C45_combinations ms (L : Matcher -> str -> Prop) s : Forall (fun m => decides m (L m) s) ms ->
  decides (MAnyOf ms) (fun s => exists m, In m ms /\ L m s) s /\ decides (MEveryOf ms) (fun s => forall m, In m ms -> L m s) s.
Proof.
  intros F. split; apply all_right; unfold Match; cbn [sem sMatch].
  - induction F as [|m ms D F [b [E H]]]; [exists false; split; [reflexivity|]; split; [discriminate|intros [m [[] _]]]|]. cbn [map any_match]. fold (Match m s). destruct D as [[A D]|[R D]].
    + rewrite A. exists true. split; [reflexivity|]. split; [|reflexivity]. intros _. exists m. split; [left; reflexivity|exact D].
    + rewrite R. exists b. split; [exact E|]. rewrite H. split; [intros [m' [I D']]; exists m'; split; [right; exact I|exact D']|]. intros [m' [[<-|I] D']]; [contradiction|eauto].
  - induction F as [|m ms D F [b [E H]]]; [exists true; split; [reflexivity|]; split; [intros _ m []|reflexivity]|]. cbn [map every_match]. fold (Match m s). destruct D as [[A D]|[R D]].
    + rewrite A. exists b. split; [exact E|]. rewrite H. split; [intros Q m' [<-|I]; [exact D|apply Q, I]|]. intros Q m' I. apply Q. right. exact I.
    + rewrite R. exists false. split; [reflexivity|]. split; [discriminate|]. intros Q. exfalso. apply D, Q. left. reflexivity.
Qed.
Print Assumptions C45_text_matchers.
Print Assumptions C45_character_matchers.
Print Assumptions C45_empty_refuted.
Print Assumptions C45_any_matchers.
Print Assumptions C45_length_matchers.
Print Assumptions C45_combinations.
Example C45_case : decides (MEveryOf [MMin 2; MPrefix (lit "a")]) (fun s => forall m, In m [MMin 2; MPrefix (lit "a")] -> (match m with MMin n => n <= length s | _ => HasPrefix s (lit "a") = true end)) (lit "ab").
Proof. left. split; [reflexivity|]. intros m [<-|[<-|[]]]; [cbn; lia|reflexivity]. Qed.

(** ** C46 *)
Lemma glob_of p seps m n f m' : Parse p = POk n -> Globs p seps m -> compile_f f n seps = Some m' -> m = m'.
Proof. intros P [t [f' [P' C]]] C'. rewrite P in P'. injection P' as <-. apply (fuel_unique _ _ _ _ _ _ C C'). Qed.
(** A pattern that is a sequence of terms (and not text ** text): the glob accepts exactly the strings the pattern stands for, and never panics.
    On the empty string only if the pattern is not just ?, a negated class, or alternatives with such. *)
Theorem C46_sequences p seps ns m : Parse p = POk (NPattern ns) -> Globs p seps m -> ascii seps -> Forall term ns -> sequence seps ns -> (forall a b, ~ between seps ns a b) ->
  forall s, ascii s -> (s = [] -> forall n, ns = [n] -> ~ negative n) -> decides m (den seps (NPattern ns)) s.
Proof.
  intros P G As F Q NB s Hs HN. destruct (sequence_compiled seps ns As F Q NB (fun B0 => False_ind _ (diff_false_true B0))) as [f [m' [C [_ R]]]]. rewrite (glob_of _ _ _ _ _ _ P G C). apply right_decides, R; assumption.
Qed.
(** The same for the pattern as the user writes it (C44: it parses to these terms). *)
Theorem C46_written p seps ns m : writes_seq false ns p -> Globs p seps m -> ascii seps -> Forall term ns -> sequence seps ns -> (forall a b, ~ between seps ns a b) ->
  forall s, ascii s -> s <> [] -> decides m (den seps (NPattern ns)) s.
Proof. intros W G As F Q NB s Hs Ne. apply (C46_sequences p seps ns m (parse_written _ _ (ex_intro _ ns (conj eq_refl W))) G As F Q NB s Hs). intros E. contradiction. Qed.
(** text ** text is compiled to "starts with the first and ends with the second", which may overlap: exactly then the glob is wrong. *)
Lemma cat_wide seps mid : mid <> [] -> Forall (wide seps) mid -> forall s, cat seps mid s.
Proof.
  intros Ne F. destruct F as [|n mid W F]; [contradiction|]. intros s. assert (D : forall t n, wide seps n -> den seps n t) by (intros t n' [->|[-> ->]]; cbn; [exact I|]; apply Forall_forall; intros ? _ []).
  cbn [cat]. exists s, []. rewrite app_nil_r. split; [reflexivity|]. split; [apply D, W|]. clear W Ne. induction F as [|n' mid W F IH]; [reflexivity|]. exists [], []. auto.
Qed.
Lemma literal_den seps n t : literal n = Some t -> leaf n -> forall s, den seps n s <-> s = t.
Proof.
  intros E Lf s. destruct n as [|ns|b cs|b lo hi|t'| | | |ns]; try discriminate.
  - destruct b; [discriminate|]. destruct cs as [|c [|? ?]]; try discriminate. injection E as <-. destruct Lf as [Ac _]. cbn [den]. rewrite (runes_all_ascii [c] Ac). assert (V : (0 <= c < 128)%Z) by (inversion Ac; assumption). split.
    + intros [d [[_ ->] [<-|[]]]]. apply encode_ascii, V.
    + intros ->. exists c. split; [split; [apply valid_ascii, V|symmetry; apply encode_ascii, V]|left; reflexivity].
  - injection E as <-. reflexivity.
Qed.
Theorem C46_between p seps ns m a b : Parse p = POk (NPattern ns) -> Globs p seps m -> ascii seps -> Forall leaf ns -> between seps ns a b ->
  forall s, decides m (fun s => (exists u, s = a ++ u) /\ (exists u, s = u ++ b)) s
    /\ (den seps (NPattern ns) s <-> accepts m s /\ length a + length b <= length s).
Proof.
  intros P G As F B s. destruct (terms_elems seps ns As) as [xs FX]; [eapply Forall_impl; [|exact F]; intros n L; left; exact L|discriminate|].
  destruct (elems_between_back _ _ _ _ _ FX B) as [mid [Em [Nm Fm]]]. assert (Ne : ns <> []) by (destruct B as [x [y [z [-> _]]]]; discriminate).
  destruct (elems_compile seps ns xs FX Ne) as [f C]. rewrite Em, (stars_compiled a mid b Nm Fm) in C. rewrite (glob_of _ _ _ _ _ _ P G C).
  assert (D : decides (MPrefixSuffix a b) (fun s => (exists u, s = a ++ u) /\ (exists u, s = u ++ b)) s) by apply (C45_text_matchers a a b s). split; [exact D|].
  destruct B as [na [nm [nb [-> [La [Lb [Nn W]]]]]]]. inversion F as [|? ? Fa F']; subst. apply Forall_app in F'. destruct F' as [_ Fb]. inversion Fb as [|? ? Fb' _]; subst.
  rewrite den_pattern. cbn [cat]. assert (AC : accepts (MPrefixSuffix a b) s <-> (exists u, s = a ++ u) /\ (exists u, s = u ++ b)).
  { destruct D as [[A D]|[R D]]; [tauto|]. split; [intros A; unfold accepts, rejects in *; congruence|contradiction]. }
  rewrite AC. split.
  - intros [u [v [-> [Du H]]]]. apply (literal_den seps na a La Fa) in Du. subst u. apply cat_app in H. destruct H as [x [y [-> [_ H]]]]. apply cat_one, (literal_den seps nb b Lb Fb') in H. subst y.
    split; [split; [eauto|exists (a ++ x); rewrite app_assoc; reflexivity]|]. rewrite !app_length. lia.
  - intros [[[u ->] [v E]] L]. rewrite app_length in L. exists a, u. split; [reflexivity|]. split; [apply (literal_den seps na a La Fa); reflexivity|]. apply cat_app.
    assert (Lv : length a <= length v) by (apply (f_equal (@length Z)) in E; rewrite !app_length in E; lia).
    assert (Ev : v = a ++ skipn (length a) v). { rewrite <- (firstn_skipn (length a) v) at 1. f_equal. apply (f_equal (firstn (length a))) in E. rewrite !firstn_app, firstn_all, Nat.sub_diag in E. replace (length a - length v) with 0 in E by lia. cbn [firstn] in E. rewrite !app_nil_r in E. symmetry. exact E. }
    rewrite Ev, <- app_assoc in E. apply app_inv_head in E. exists (skipn (length a) v), b. split; [exact E|]. split; [apply cat_wide; assumption|]. apply cat_one, (literal_den seps nb b Lb Fb'). reflexivity.
Qed.
(** {p1,p2,..} of sequences that do not all begin with the same term and do not all end with the same term. *)
Theorem C46_alternatives p seps alts m : Parse p = POk (NPattern [NAnyOf (map NPattern alts)]) -> Globs p seps m -> ascii seps -> alts <> [] ->
  Forall (fun ns => Forall term ns /\ sequence seps ns /\ forall a b, ~ between seps ns a b) alts ->
  (length alts = 1 \/ (forall n, ~ (forall ns, In ns alts -> hd_error ns = Some n)) /\ (forall n, ~ (forall ns, In ns alts -> hd_error (rev ns) = Some n))) ->
  forall s, ascii s -> (s = [] -> forall n, In [n] alts -> ~ negative n) -> decides m (den seps (NAnyOf (map NPattern alts))) s.
Proof.
  intros P G As Ne F D s Hs HN. destruct (alternatives_compiled seps alts As Ne F D) as [f [m' [C R]]]. rewrite (glob_of _ _ _ _ _ _ P G C). apply right_decides, R; assumption.
Qed.
(** {g l1 h, g l2 h, ...}: alternatives that differ in one term and share the one before it, the one after it, or both. *)
Theorem C46_shared p seps pre post ls m : Parse p = POk (NPattern [NAnyOf (map (fun l => NPattern (pre ++ [l] ++ post)) ls)]) -> Globs p seps m -> ascii seps ->
  length pre <= 1 -> length post <= 1 -> 1 <= length pre + length post -> Forall term pre -> Forall term post ->
  choices ls -> same_width ls \/ Forall (fun l => ~ negative_leaf l) ls -> sequence seps (pre ++ [choice ls] ++ post) ->
  forall s, ascii s -> decides m (den seps (NAnyOf (map (fun l => NPattern (pre ++ [l] ++ post)) ls))) s.
Proof.
  intros P G As L1 L2 L3 Tp Tq CH CW Q s Hs. destruct (around_compiled seps pre post ls As L1 L2 L3 Tp Tq CH CW Q) as [f [m' [C R]]]. rewrite (glob_of _ _ _ _ _ _ P G C). apply right_decides, R; assumption.
Qed.
Print Assumptions C46_sequences.
Print Assumptions C46_written.
Print Assumptions C46_between.
Print Assumptions C46_alternatives.
Print Assumptions C46_shared.

(** *** The hypotheses are met by everyday patterns *)
Ltac ascii_tac := vm_compute; repeat first [apply Forall_nil|apply Forall_cons]; split; intuition discriminate.
Ltac leaf_tac := first [exact I|split; [ascii_tac|discriminate]].
Definition slash : list Z := [47%Z].
Lemma follow_small seps n n' : length seps <= 1 -> (forall e, excluded seps n = Some e -> excluded seps n' = Some e -> length e <= 1) -> (star n -> star n' -> excluded seps n = excluded seps n') -> may_follow seps n n'.
Proof. intros L A B. split; [exact A|]. split; [exact B|]. intros _ H. lia. Qed.
Ltac follow := apply follow_small; [cbn; lia|cbn; intros; try discriminate; repeat match goal with H : Some _ = Some _ |- _ => injection H as <- end; try discriminate; cbn; try lia|cbn; intros [?|?] [?|?]; try discriminate; try reflexivity].
(** src/**/[!_]*_?.{go,md} *)
Definition c46_terms : list Node := [NText (lit "src/"); NSuper; NText (lit "/"); NList true (lit "_"); NAny; NText (lit "_"); NSingle; NText (lit "."); choice [NText (lit "go"); NText (lit "md")]].
Example C46_case_sequence : Parse (lit "src/**/[!_]*_?.{go,md}") = POk (NPattern c46_terms) /\ Forall term c46_terms /\ sequence slash c46_terms /\ (forall a b, ~ between slash c46_terms a b)
  /\ exists m, Globs (lit "src/**/[!_]*_?.{go,md}") slash m /\ accepts m (lit "src/a/b/c_x_y.md") /\ rejects m (lit "src/a/b/_x_y.md").
Proof.
  split; [vm_compute; reflexivity|]. split.
  - unfold c46_terms. repeat match goal with |- Forall _ (_ :: _) => constructor | |- Forall _ [] => constructor end; try (left; leaf_tac).
    right. eexists. split; [reflexivity|]. split; [|left; intros x y [<-|[<-|[]]] [<-|[<-|[]]]; reflexivity]. split; [repeat (constructor; [split; [leaf_tac|discriminate]|]); constructor|]. exists (NText (lit "go")), (NText (lit "md")). split; [left; reflexivity|]. split; [right; left; reflexivity|discriminate].
  - split; [unfold c46_terms; repeat (split; [follow|]); exact I|]. split; [|eexists; split; [exists (NPattern c46_terms), 20; split; vm_compute; reflexivity|split; vm_compute; reflexivity]].
    intros a b [x [mid [y [E [La [Lb [Ne W]]]]]]]. injection E as <- E. destruct mid as [|m0 mid]; [contradiction|]. injection E as <- E. destruct mid as [|m1 mid]; [discriminate E|]. injection E as <- E. inversion W as [|? ? _ W1]; subst. inversion W1 as [|? ? W2 _]; subst. destruct W2 as [W2|[W2 _]]; discriminate W2.
Qed.
(** {*.go,Makefile} *)
Definition c46_alts : list (list Node) := [[NAny; NText (lit ".go")]; [NText (lit "Makefile")]].
Example C46_case_alternatives : Parse (lit "{*.go,Makefile}") = POk (NPattern [NAnyOf (map NPattern c46_alts)])
  /\ Forall (fun ns => Forall term ns /\ sequence slash ns /\ forall a b, ~ between slash ns a b) c46_alts
  /\ (forall n, ~ (forall ns, In ns c46_alts -> hd_error ns = Some n)) /\ (forall n, ~ (forall ns, In ns c46_alts -> hd_error (rev ns) = Some n)).
Proof.
  split; [vm_compute; reflexivity|]. split; [|split].
  - constructor; [|constructor; [|constructor]].
    + split; [constructor; [left; exact I|constructor; [left; split; [ascii_tac|discriminate]|constructor]]|]. split; [split; [follow|exact I]|]. intros a b [x [mid [y [E [La [Lb [Ne W]]]]]]]. injection E as <- E. discriminate La.
    + split; [constructor; [left; split; [ascii_tac|discriminate]|constructor]|]. split; [exact I|]. intros a b [x [mid [y [E [La [Lb [Ne W]]]]]]]. injection E as <- E. destruct mid; discriminate E.
  - intros n H. assert (A := H _ (or_introl eq_refl)). assert (B := H _ (or_intror (or_introl eq_refl))). cbn in A, B. congruence.
  - intros n H. assert (A := H _ (or_introl eq_refl)). assert (B := H _ (or_intror (or_introl eq_refl))). cbn in A, B. congruence.
Qed.
(** {*.go,*.md} *)
Example C46_case_shared : let ls := [NText (lit ".go"); NText (lit ".json")] in Parse (lit "{*.go,*.json}") = POk (NPattern [NAnyOf (map (fun l => NPattern ([NAny] ++ [l] ++ [])) ls)])
  /\ choices ls /\ Forall (fun l => ~ negative_leaf l) ls /\ sequence slash ([NAny] ++ [choice ls] ++ [])
  /\ exists m, Globs (lit "{*.go,*.json}") slash m /\ accepts m (lit "a.json") /\ rejects m (lit "x/a.go").
Proof.
  cbv zeta. split; [vm_compute; reflexivity|]. split; [split; [repeat (constructor; [split; [leaf_tac|discriminate]|]); constructor|]; exists (NText (lit ".go")), (NText (lit ".json")); split; [left; reflexivity|]; split; [right; left; reflexivity|discriminate]|].
  split; [repeat constructor; intros []|]. split; [split; [follow|exact I]|]. eexists. split; [exists (NPattern [NAnyOf [NPattern [NAny; NText (lit ".go")]; NPattern [NAny; NText (lit ".json")]]]), 20; split; vm_compute; reflexivity|split; vm_compute; reflexivity].
Qed.
Example C46_case_between : Parse (lit "ab*ba") = POk (NPattern [NText (lit "ab"); NAny; NText (lit "ba")]) /\ between [] [NText (lit "ab"); NAny; NText (lit "ba")] (lit "ab") (lit "ba").
Proof. split; [vm_compute; reflexivity|]. exists (NText (lit "ab")), [NAny], (NText (lit "ba")). repeat split; [discriminate|]. constructor; [right; auto|constructor]. Qed.

(** *** Outside the fragment the globs are wrong or panic *)
Definition wrong (p : str) (seps : list Z) (s : str) : Prop := exists t m, Parse p = POk t /\ Globs p seps m /\ ((accepts m s /\ ~ den seps t s) \/ (rejects m s /\ den seps t s) \/ panics m s).
Ltac compiled f := match goal with |- wrong ?p ?seps ?s => let t := eval vm_compute in (Parse p) in match t with POk ?n => let m := eval vm_compute in (compile_f f n seps) in match m with Some ?mm => exists n, mm; split; [vm_compute; reflexivity|]; split; [exists n, f; split; vm_compute; reflexivity|] end end end.
Theorem C46_refuted :
  (* one character of neither a nor b, twice *) wrong (lit "[!ab][!ab]") [] (lit "aa")
  /\ (* one character *) wrong (lit "?") [] []
  /\ (* overlapping texts *) wrong (lit "ab*ba") [] (lit "aba")
  /\ (* ** and * with a separator, the empty string *) wrong (lit "***") slash []
  /\ (* the first alternative has no fixed width, the others the same *) wrong (lit "{*,abc}d") [] (lit "xd")
  /\ (* alternatives of different widths with ? *) wrong (lit "x{?,ab}") [] (lit "x")
  /\ (* * with two separators and ? *) wrong (lit "*?") (lit "/.") (lit "x.y")
  /\ (* characters of more than one byte next to ? *) wrong (lit "?x") [] (encode 233 ++ lit "x")
  /\ (* empty alternatives: panic *) wrong (lit "a{}") [] (lit "a")
  /\ (* a separator of more than one byte: panic *) wrong (lit "{x,*b}**") [233%Z] (lit "aa" ++ encode 233 ++ lit "ab").
Proof.
  assert (CH : forall s c, is_char s c -> forall b r, s = b :: r -> (0 <= b < 128)%Z -> s = [c] /\ b = c).
  { intros s c [V ->] b r E B. pose proof (decode_encode c [] V) as D. rewrite app_nil_r, E, (decode_ascii b r B) in D. injection D as <- L. destruct r; [auto|discriminate L]. }
  repeat match goal with |- _ /\ _ => split end.
  - compiled 20. left. split; [vm_compute; reflexivity|]. intros D. apply den_pattern in D. cbn [cat] in D. destruct D as [u [v [E [[c [C N]] H]]]]. destruct u as [|b u]; [destruct C as [_ C]; destruct (encode_nonempty c); auto|].
    cbn in E. injection E as <- _. destruct (CH _ _ C _ _ eq_refl ltac:(lia)) as [_ <-]. apply N. vm_compute. auto.
  - compiled 20. left. split; [vm_compute; reflexivity|]. intros D. apply den_pattern, cat_one in D. destruct D as [c [[_ E] _]]. apply (encode_nonempty c). auto.
  - compiled 20. left. split; [vm_compute; reflexivity|]. intros D. apply den_pattern in D. cbn [cat] in D. destruct D as [u [v [E [-> [w [y [-> [_ [z [x [-> [-> ->]]]]]]]]]]]]. apply (f_equal (@length Z)) in E. rewrite !app_length in E. cbn in E. lia.
  - compiled 20. right. left. split; [vm_compute; reflexivity|]. apply den_pattern. exists [], []. split; [reflexivity|]. split; [exact I|]. exists [], []. split; [reflexivity|]. split; [constructor|reflexivity].
  - compiled 20. right. left. split; [vm_compute; reflexivity|]. apply den_pattern. exists (lit "x"), (lit "d"). split; [reflexivity|]. split; [left; exists (lit "x"), []; split; [reflexivity|]; split; [repeat constructor; intros []|reflexivity]|]. exists (lit "d"), []. repeat split.
  - compiled 20. left. split; [vm_compute; reflexivity|]. intros D. apply den_pattern in D. cbn [cat] in D. destruct D as [u [v [E [-> [w [y [-> [H ->]]]]]]]]. cbn in E. injection E as E. destruct w; [|discriminate]. apply den_anyof in H. destruct H as [n [I0 H]].
    destruct I0 as [<-|[<-|[]]]; apply den_pattern, cat_one in H; [destruct H as [c [[_ H] _]]; apply (encode_nonempty c); auto|discriminate H].
  - compiled 20. left. split; [vm_compute; reflexivity|]. intros D. apply den_pattern in D. cbn [cat] in D. destruct D as [u [v [E [A [w [y [-> [[c [C N]] ->]]]]]]]]. rewrite app_nil_r in E.
    destruct w as [|b w]; [destruct C as [_ C]; destruct (encode_nonempty c); auto|]. assert (B : (0 <= b < 128)%Z) by (destruct u as [|? [|? [|? [|? ?]]]]; cbn in E; injection E; intros; subst; try lia; discriminate).
    destruct (CH _ _ C _ _ eq_refl B) as [E1 _]. injection E1 as _ ->. destruct u as [|u0 [|u1 [|u2 u]]]; try discriminate E; [|destruct u; discriminate E]. injection E as <- <- _. vm_compute in A. inversion A as [|? ? _ A1]; subst. inversion A1 as [|? ? A2 _]; subst. apply A2. right. left. reflexivity.
  - compiled 20. right. left. split; [vm_compute; reflexivity|]. apply den_pattern. exists (encode 233), (lit "x"). split; [reflexivity|]. split; [exists 233%Z; split; [split; [split; [lia|reflexivity]|reflexivity]|intros []]|]. exists (lit "x"), []. repeat split.
  - compiled 20. right. right. vm_compute. reflexivity.
  - compiled 20. right. right. vm_compute. reflexivity.
Qed.
Print Assumptions C46_refuted.
