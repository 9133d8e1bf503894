(** * C46 for nested patterns: sequences of alternatives of sequences of ... *)
From Coq Require Import String.
From Coq Require Import ZArith Arith List Bool Lia.
From Verif Require Import Utf8 GoStr GlobLex GlobMatch GlobCompile GlobSpec GlobFragment GlobParse GlobFactor GlobSem GlobGlue GlobLeaf GlobSeq GlobAlt GlobProps3 GlobNestSpec GlobShare GlobNest.
From Verif Require FsModel RepoModel RepoSpec RepoLines RepoProps GlobSearch GlobSearchProps.
Import ListNotations.
Open Scope nat_scope.
#[local] Instance ascii_mode : Mode := false.

Section Nested.
Context {md : Mode}.
Lemma nested_decides p seps ns m : Parse p = POk (NPattern ns) -> Globs p seps m -> ascii seps -> Forall (item mode seps) ns -> fits mode seps ns ->
  forall s, dom s -> (s = [] -> forall n, ns = [n] -> ~ blunt n) -> decides m (den seps (NPattern ns)) s.
Proof.
  intros P G As F T s Hs HN. destruct (items_phrase seps ns As F T) as [x E]. destruct (p_comp _ _ _ E) as [f C]. rewrite (glob_of _ _ _ _ _ _ P G C).
  apply right_decides, (right_ext _ (lg x)); [apply (p_den _ _ _ E s Hs)|apply (p_right _ _ _ E s Hs HN)].
Qed.
Lemma alternatives_decides p seps alts m : Parse p = POk (NPattern [group alts]) -> Globs p seps m -> ascii seps -> alts <> [] ->
  (forall a n, In a alts -> In n a -> item mode seps n) -> Forall (fits mode seps) alts -> length alts = 1 \/ unshared alts ->
  forall s, dom s -> (s = [] -> forall n, In [n] alts -> ~ blunt n) -> decides m (den seps (group alts)) s.
Proof.
  intros P G As Ne I FT D s Hs HN. destruct (list_choice (pof seps) alts) as [xs F].
  { intros a Ia. rewrite Forall_forall in FT. apply items_phrase; [exact As| |apply FT, Ia]. apply Forall_forall. intros n In0. apply (I a n Ia In0). }
  destruct (group_members seps alts xs F D) as [f C0].
  assert (OO : optimizeMatcher (optimizeMatcher (MAnyOf (map mtc xs))) = optimizeMatcher (MAnyOf (map mtc xs))).
  { destruct F as [|a x alts xs E F]; [reflexivity|]. destruct xs; [apply (p_opt _ _ _ E)|reflexivity]. }
  rewrite (glob_of _ _ _ _ _ _ P G (compile_wrap seps _ _ _ C0 OO)). apply right_decides, (right_ext _ (unionL (map lg xs))); [apply map_union_den; assumption|].
  pose proof (group_right seps alts xs s F Hs HN) as R. destruct xs as [|x [|x' xs]]; [exact R| |exact R]. cbn [map optimizeMatcher]. destruct R as [b [Mb Hb]]. exists b. split; [|exact Hb]. cbn in Mb. destruct (sMatch (sem (mtc x)) s) as [[|]|]; congruence.
Qed.
End Nested.
(** A sequence of items, each a leaf or alternatives of such sequences, to any depth: the glob accepts exactly the strings the
    pattern stands for and never panics.  Alternatives may share a beginning or an end, which the library takes out first.  (On the empty string, if the pattern is not just ?, a negated class, or alternatives with such.) *)
Theorem C46_nested p seps ns m : Parse p = POk (NPattern ns) -> Globs p seps m -> ascii seps -> Forall (item false seps) ns -> fits false seps ns ->
  forall s, ascii s -> (s = [] -> forall n, ns = [n] -> ~ blunt n) -> decides m (den seps (NPattern ns)) s.
Proof. exact (nested_decides p seps ns m). Qed.
(** The same for the pattern as the user writes it. *)
Theorem C46_nested_written p seps ns m : writes_seq false ns p -> Globs p seps m -> ascii seps -> Forall (item false seps) ns -> fits false seps ns ->
  forall s, ascii s -> s <> [] -> decides m (den seps (NPattern ns)) s.
Proof. intros W G As F T s Hs Ne. apply (C46_nested p seps ns m (parse_written _ _ (ex_intro _ ns (conj eq_refl W))) G As F T s Hs). intros E. contradiction. Qed.
(** A whole pattern {p1,p2,..} of such sequences, in any order. *)
Theorem C46_nested_alternatives p seps alts m : Parse p = POk (NPattern [group alts]) -> Globs p seps m -> ascii seps -> alts <> [] ->
  (forall a n, In a alts -> In n a -> item false seps n) -> Forall (fits false seps) alts -> length alts = 1 \/ unshared alts ->
  forall s, ascii s -> (s = [] -> forall n, In [n] alts -> ~ blunt n) -> decides m (den seps (group alts)) s.
Proof. exact (alternatives_decides p seps alts m). Qed.

(** *** This covers the flat sequences of C46_sequences *)
Lemma choice_group ls : choice ls = group (map (fun l => [l]) ls).
Proof. unfold choice, group. rewrite map_map. reflexivity. Qed.
Lemma size_one seps n : size seps (NPattern [n]) = size seps n.
Proof. cbn. destruct (size seps n); [f_equal; lia|reflexivity]. Qed.
Lemma size_leaf seps n : leaf n -> size seps n = width n.
Proof. destruct n; cbn; try reflexivity; contradiction. Qed.
Lemma choices_two ls : choices ls -> 2 <= length ls.
Proof. intros [_ [a [b [Ia [Ib N]]]]]. destruct ls as [|x [|y ls]]; [destruct Ia| |cbn; lia]. destruct Ia as [<-|[]], Ib as [<-|[]]. contradiction N. reflexivity. Qed.
Lemma choice_size seps ls : choices ls -> same_width ls -> size seps (choice ls) <> None.
Proof.
  intros C SW. pose proof (choices_two ls C) as L2. destruct C as [F _]. destruct ls as [|l ls]; [cbn in L2; lia|]. unfold choice. cbn [size map common_size].
  assert (A : forall x, In x (l :: ls) -> size seps (NPattern [x]) = width l). { intros x I. rewrite size_one, size_leaf; [apply SW; [exact I|left; reflexivity]|]. rewrite Forall_forall in F. apply F, I. }
  assert (W : width l <> None) by (inversion F as [|? ? [_ W] _]; exact W). rewrite map_map. rewrite (proj2 (forallb_forall _ _)); [change (size seps (NPattern [l]) <> None); rewrite (A l (or_introl eq_refl)); exact W|].
  intros o I. apply in_map_iff in I. destruct I as [x [<- I]]. apply onat_eqb_iff. change (size seps (NPattern [l]) = size seps (NPattern [x])). rewrite (A x (or_intror I)). apply A. left. reflexivity.
Qed.
Lemma choices_unshared ls : choices ls -> unshared (map (fun l => [l]) ls).
Proof.
  intros [_ [a [b [Ia [Ib N]]]]]. split; intros n H; apply N; assert (K : forall l, In l ls -> l = n) by (intros l Il; specialize (H [l] (in_map (fun l => [l]) ls l Il)); cbn in H; congruence); rewrite (K a Ia), (K b Ib); reflexivity.
Qed.
Lemma term_item seps n : term n -> item false seps n.
Proof.
  intros [Lf|[ls [-> [C CW]]]]; [constructor; [exact Lf|discriminate]|]. pose proof (choices_two ls C) as L2. assert (SZ := choice_size seps ls C). destruct C as [F [a [b [Ia [Ib N]]]]]. rewrite Forall_forall in F.
  rewrite choice_group in *. apply it_group.
  - rewrite map_length. exact L2.
  - apply choices_unshared. split; [apply Forall_forall; exact F|eauto].
  - exists [a]. split; [apply (in_map (fun l => [l]) ls a Ia)|discriminate].
  - intros x n Ix In0. apply in_map_iff in Ix. destruct Ix as [l [<- Il]]. destruct In0 as [<-|[]]. constructor; [apply F, Il|discriminate].
  - apply Forall_forall. intros x Ix. apply in_map_iff in Ix. destruct Ix as [l [<- Il]]. split; [exact I|]. intros p q [u [mid [v [E _]]]]. destruct mid; discriminate.
  - intros before after k E Nb Na Fb Fa. destruct before as [|x before]; [contradiction|]. destruct ls as [|l ls]; [discriminate|]. cbn in E. injection E as <- E. inversion Fb as [|? ? Q _]; subst. rewrite size_one, size_leaf in Q; [|apply F; left; reflexivity]. destruct (F l (or_introl eq_refl)) as [_ W]. contradiction.
  - intros E n In0 B. destruct CW as [SW|NN]; [apply (SZ SW), E|]. apply in_map_iff in In0. destruct In0 as [l [El Il]]. injection El as ->. destruct (F n Il) as [Lf _]. rewrite Forall_forall in NN. apply (NN n Il). inversion B as [? NL|cs n' Hin]; subst; [exact NL|destruct Lf].
Qed.
Lemma term_unsized seps n : term n -> size seps n = None -> star n \/ variable n.
Proof.
  intros [Lf|[ls [-> [C _]]]] E; [left; rewrite (size_leaf seps n Lf) in E; destruct n; cbn in *; try discriminate; try contradiction; [left|right]; reflexivity|]. right. exists ls. split; [reflexivity|]. intros SW. apply (choice_size seps ls C SW E).
Qed.
Theorem C46_nested_covers seps ns : ascii seps -> Forall term ns -> sequence seps ns -> (forall a b, ~ between seps ns a b) -> Forall (item false seps) ns /\ fits false seps ns.
Proof.
  intros As F Q NB. split; [eapply Forall_impl; [|exact F]; intros n; apply term_item|]. split; [|exact NB]. clear NB. induction F as [|n ns Tn F IH]; [exact I|]. destruct F as [|n' ns Tn' F]; [exact I|]. destruct Q as [[A [B C]] Q]. split; [|apply IH, Q].
  split; [exact A|]. split.
  - intros D D'. destruct (elof_term seps n As Tn (fun B0 => False_ind _ (diff_false_true B0))) as [x E]. destruct (elof_term seps n' As Tn' (fun B0 => False_ind _ (diff_false_true B0))) as [x' E']. apply (e_den _ _ _ E [] ltac:(constructor)) in D. apply (e_den _ _ _ E' [] ltac:(constructor)) in D'.
    apply (e_star _ _ _ E) in D. apply (e_star _ _ _ E') in D'. auto.
  - intros U U'. destruct (term_unsized seps n Tn U) as [[->| ->]|[ls [-> NW]]].
    + apply se_any. destruct (Nat.le_gt_cases (length seps) 1) as [H|H]; [exact H|]. exfalso. destruct (C eq_refl H) as [C1 C2]. destruct U' as [U'|U']; [|contradiction]. destruct (term_unsized seps n' Tn' U') as [S1|V]; [|contradiction].
      destruct (star_excluded seps n' S1) as [e Ex]. congruence.
    + apply se_super.
    + destruct Tn as [[]|[ls' [E [CH _]]]]. apply choice_inj in E. subst ls'. rewrite choice_group. apply se_group; [apply choices_unshared, CH|]. intros c Ic. apply in_map_iff in Ic. destruct Ic as [l [<- Il]]. destruct CH as [FL _]. rewrite Forall_forall in FL. destruct (FL l Il) as [Lf W].
      destruct (width l) as [k|] eqn:Wl; [|contradiction]. apply (se_sized _ _ _ k). rewrite size_one, size_leaf; assumption.
Qed.

(** *** The order of alternatives matters *)
Ltac parsed := vm_compute; reflexivity.
(** *.{tar*,zip} does not accept a.tarball, *.{zip,tar*} does. *)
Theorem C46_order_refuted : wrong (lit "*.{tar*,zip}") [] (lit "a.tarball") /\ exists m, Globs (lit "*.{zip,tar*}") [] m /\ accepts m (lit "a.tarball").
Proof.
  split.
  - compiled 20. right. left. split; [vm_compute; reflexivity|]. apply den_pattern. exists (lit "a"), (lit ".tarball"). split; [reflexivity|]. split; [repeat constructor; intros []|]. exists (lit "."), (lit "tarball"). split; [reflexivity|]. split; [reflexivity|].
    exists (lit "tarball"), []. split; [reflexivity|]. split; [|reflexivity]. left. exists (lit "tar"), (lit "ball"). split; [reflexivity|]. split; [reflexivity|]. exists (lit "ball"), []. split; [reflexivity|]. split; [|reflexivity]. repeat constructor; intros [].
  - eexists. split; [eexists; exists 20; split; [parsed|parsed]|parsed].
Qed.

(** Searching the store with such a pattern (C62): exactly the matching lines of every file, if the lines are ASCII. *)
Theorem C62_nested w fs query seps ns o : writes_seq false ns query -> ascii seps -> Forall (item false seps) ns -> fits false seps ns ->
  GlobSearchProps.lines_of_files w fs ascii -> (forall n, ns = [n] -> blunt n -> GlobSearchProps.lines_of_files w fs (fun t => t <> [])) ->
  GlobSearch.GlobSearch w fs query seps o -> GlobSearchProps.finds (den seps (NPattern ns)) w fs o.
Proof.
  intros W A F T LA LN G. assert (P : Parse query = POk (NPattern ns)) by (apply parse_written; exists ns; auto). apply (GlobSearchProps.search_finds w fs query seps _ _ o P G). intros m Gm f c ts t If O T0 B It.
  apply (C46_nested query seps ns m P Gm A F T t (LA f c ts t If O T0 B It)). intros Et n En Nn. exact (LN n En Nn f c ts t If O T0 B It Et).
Qed.
Print Assumptions C62_nested.
Print Assumptions C46_nested.
Print Assumptions C46_nested_written.
Print Assumptions C46_nested_alternatives.
Print Assumptions C46_nested_covers.
Print Assumptions C46_order_refuted.

(** *** The hypotheses are met: src/{Makefile,*.{zip,tar*},v{1,2?}.go} *)
Definition c46_archives : list (list Node) := [[NText (lit "zip")]; [NText (lit "tar"); NAny]].
Definition c46_versions : list (list Node) := [[NText (lit "1")]; [NText (lit "2"); NSingle]].
Definition c46_files : list (list Node) := [[NText (lit "Makefile")]; [NAny; NText (lit "."); group c46_archives]; [NText (lit "v"); group c46_versions; NText (lit ".go")]].
Definition c46_nested : list Node := [NText (lit "src/"); group c46_files].
Lemma ordered_sized seps a alts k : size seps (NPattern a) = Some k -> ordered seps (a :: alts).
Proof. intros E before after j Q Nb _ Fb _. destruct before as [|x before]; [contradiction|]. injection Q as <- _. inversion Fb as [|? ? Q1 _]; subst. congruence. Qed.
Ltac unshared_tac := split; intros n H; pose proof (H _ (or_introl eq_refl)) as HA; pose proof (H _ (or_intror (or_introl eq_refl))) as HB; cbn in HA, HB; rewrite <- HB in HA; discriminate HA.
Ltac follows_tac := split; [cbn; intros; discriminate|]; split; [intros D D'; exfalso; first [discriminate D'|discriminate D]|cbn; intros H; first [discriminate H|intros [H'|H']; [discriminate H'|exfalso; apply H'; reflexivity]]].
Ltac between_tac := let p := fresh in intros p ? [? [mid [? [E [La [Lb [Ne W]]]]]]]; destruct mid as [|? [|? [|? ?]]]; try discriminate E; injection E; intros; subst; first [discriminate La|discriminate Lb|inversion W as [|? ? [X|[X _]] _]; discriminate X].
Lemma text_item seps t : ascii t -> t <> [] -> item false seps (NText t).
Proof. intros A B. constructor; [split; assumption|discriminate]. Qed.
Example C46_case_nested : Parse (lit "src/{Makefile,*.{zip,tar*},v{1,2?}.go}") = POk (NPattern c46_nested) /\ Forall (item false slash) c46_nested /\ fits false slash c46_nested
  /\ exists m, Globs (lit "src/{Makefile,*.{zip,tar*},v{1,2?}.go}") slash m /\ accepts m (lit "src/a.tarball") /\ accepts m (lit "src/v27.go") /\ rejects m (lit "src/a/b.zip") /\ rejects m (lit "src/v2.go").
Proof.
  assert (TX : forall t, forallb (fun c => (0 <=? c) && (c <? 128))%Z t = true -> t <> [] -> item false slash (NText t)).
  { intros t H N. apply text_item; [|exact N]. apply Forall_forall. intros c I. rewrite forallb_forall in H. specialize (H c I). apply andb_true_iff in H. destruct H as [H1 H2]. apply Z.leb_le in H1. apply Z.ltb_lt in H2. lia. }
  assert (ONE : forall n, fits false slash [n]) by (intros n; split; [exact I|]; intros p q [u [mid [v [E _]]]]; destruct mid; discriminate).
  assert (GA : item false slash (group c46_archives)).
  { apply it_group; [cbn; lia|unshared_tac|exists [NText (lit "zip")]; split; [left; reflexivity|discriminate]| | |apply (ordered_sized slash _ _ 3); reflexivity|].
    - intros a n [<-|[<-|[]]]; cbn [In]; intros H; repeat destruct H as [<-|H]; try contradiction; first [apply TX; [reflexivity|discriminate]|constructor; [exact I|discriminate]].
    - constructor; [apply ONE|]. constructor; [|constructor]. split; [split; [follows_tac|exact I]|between_tac].
    - intros _ n [H|[H|[]]]; [injection H as <-|discriminate]. intros B. inversion B as [? NL|]; subst. destruct NL. }
  assert (GV : item false slash (group c46_versions)).
  { apply it_group; [cbn; lia|unshared_tac|exists [NText (lit "1")]; split; [left; reflexivity|discriminate]| | |apply (ordered_sized slash _ _ 1); reflexivity|].
    - intros a n [<-|[<-|[]]]; cbn [In]; intros H; repeat destruct H as [<-|H]; try contradiction; first [apply TX; [reflexivity|discriminate]|constructor; [exact I|discriminate]].
    - constructor; [apply ONE|]. constructor; [|constructor]. split; [split; [follows_tac|exact I]|between_tac].
    - intros _ n [H|[H|[]]]; [injection H as <-|discriminate]. intros B. inversion B as [? NL|]; subst. destruct NL. }
  split; [vm_compute; reflexivity|]. split; [|split; [split; [split; [follows_tac|exact I]|between_tac]|]].
  - constructor; [apply TX; [reflexivity|discriminate]|]. constructor; [|constructor].
    apply it_group; [cbn; lia|unshared_tac|exists [NText (lit "Makefile")]; split; [left; reflexivity|discriminate]| | |apply (ordered_sized slash _ _ 8); reflexivity|].
    + intros a n [<-|[<-|[<-|[]]]]; cbn [In]; intros H; repeat destruct H as [<-|H]; try contradiction; first [exact GA|exact GV|apply TX; [reflexivity|discriminate]|constructor; [exact I|discriminate]].
    + constructor; [apply ONE|]. constructor; [|constructor; [|constructor]].
      * split; [split; [follows_tac|split; [follows_tac|exact I]]|between_tac].
      * split; [split; [follows_tac|split; [follows_tac|exact I]]|between_tac].
    + intros _ n [H|[H|[H|[]]]]; [injection H as <-|discriminate|discriminate]. intros B. inversion B as [? NL|]; subst. destruct NL.
  - eexists. split; [exists (NPattern c46_nested), 40; split; vm_compute; reflexivity|repeat split; vm_compute; reflexivity].
Qed.
(** A whole pattern may have its alternatives in any order: {tar*,zip}. *)
Definition c46_tars : list (list Node) := [[NText (lit "tar"); NAny]; [NText (lit "zip")]].
Example C46_case_nested_alternatives : Parse (lit "{tar*,zip}") = POk (NPattern [group c46_tars]) /\ (forall a n, In a c46_tars -> In n a -> item false slash n) /\ Forall (fits false slash) c46_tars /\ unshared c46_tars /\ ~ ordered slash c46_tars
  /\ exists m, Globs (lit "{tar*,zip}") slash m /\ accepts m (lit "tarball") /\ accepts m (lit "zip") /\ rejects m (lit "tar/x").
Proof.
  split; [vm_compute; reflexivity|]. split; [|split; [|split; [unshared_tac|split]]].
  - intros a n [<-|[<-|[]]]; cbn [In]; intros H; repeat destruct H as [<-|H]; try contradiction; (constructor; [first [exact I|split; [ascii_tac|discriminate]]|discriminate]).
  - constructor; [|constructor; [|constructor]]; [split; [split; [follows_tac|exact I]|between_tac]|]. split; [exact I|]. intros p q [u [mid [v [E _]]]]. destruct mid; discriminate.
  - intros O. apply (O [[NText (lit "tar"); NAny]] [[NText (lit "zip")]] 3); try reflexivity; try discriminate; repeat constructor.
  - eexists. split; [exists (NPattern [group c46_tars]), 40; split; vm_compute; reflexivity|repeat split; vm_compute; reflexivity].
Qed.
(** Alternatives that share a beginning: a{src/*.go,src/*.html}. *)
Definition c46_ext : list (list Node) := [[NText (lit ".go")]; [NText (lit ".html")]].
Definition c46_src : list Node := [NText (lit "src/"); NAny].
Example C46_case_shared : Parse (lit "a{src/*.go,src/*.html}") = POk (NPattern [NText (lit "a"); group (sharing c46_src [] c46_ext)]) /\ ~ unshared (sharing c46_src [] c46_ext)
  /\ item false slash (group (sharing c46_src [] c46_ext)) /\ fits false slash [NText (lit "a"); group (sharing c46_src [] c46_ext)]
  /\ exists m, Globs (lit "a{src/*.go,src/*.html}") slash m /\ accepts m (lit "asrc/x.go") /\ accepts m (lit "asrc/.html") /\ rejects m (lit "asrc/x/y.go") /\ rejects m (lit "asrc/x.c").
Proof.
  assert (ONE : forall n, fits false slash [n]) by (intros n; split; [exact I|]; intros p q [u [mid [v [E _]]]]; destruct mid; discriminate).
  split; [vm_compute; reflexivity|]. split; [|split; [|split]].
  - intros [U _]. apply (U (NText (lit "src/"))). intros a [<-|[<-|[]]]; reflexivity.
  - apply it_shared.
    + discriminate.
    + intros [H|[H|[]]]; discriminate.
    + repeat constructor; [intros [H|[]]; discriminate|intros []].
    + unshared_tac.
    + apply it_group; [cbn; lia|unshared_tac|exists [NText (lit ".go")]; split; [left; reflexivity|discriminate]| | |apply (ordered_sized slash _ _ 3); reflexivity|].
      * intros a n [<-|[<-|[]]]; cbn [In]; intros H; repeat destruct H as [<-|H]; try contradiction; apply text_item; [ascii_tac|discriminate|ascii_tac|discriminate].
      * constructor; [apply ONE|]. constructor; [apply ONE|constructor].
      * intros _ n [H|[H|[]]]; injection H as <-; intros B; inversion B as [? NL|]; subst; destruct NL.
    + intros n [<-|[<-|[]]]; [apply text_item; [ascii_tac|discriminate]|constructor; [exact I|discriminate]].
    + split; [split; [follows_tac|exact I]|between_tac].
    + split; [exact I|]. intros p q [u [mid [v [E _]]]]. destruct mid; discriminate.
    + split; [|exact I]. split; [cbn; intros; discriminate|]. split.
      * intros D. exfalso. apply den_pattern in D. destruct D as [u [v [E [D _]]]]. cbn in D. subst u. discriminate E.
      * intros _ _. apply se_text_any; [reflexivity|cbn; lia].
    + reflexivity.
  - split; [split; [|exact I]|between_tac]. split; [cbn; intros; discriminate|]. split; [intros D; discriminate D|]. intros H. discriminate H.
  - eexists. split; [exists (NPattern [NText (lit "a"); group (sharing c46_src [] c46_ext)]), 40; split; vm_compute; reflexivity|repeat split; vm_compute; reflexivity].
Qed.
