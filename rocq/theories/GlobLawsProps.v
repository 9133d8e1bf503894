(** * C87: laws for rewriting a pattern. *)
From Coq Require Import String.
From Coq Require Import ZArith Arith List Bool Lia.
From Verif Require Import Utf8 GoStr GlobLex GlobMatch GlobCompile GlobSpec GlobFragment GlobParse GlobFactor GlobSem GlobGlue GlobLeaf GlobSeq GlobAlt GlobProps3 GlobNestSpec GlobShare GlobNest GlobNestProps GlobLawsSpec GlobLaws.
From Verif Require GlobGram.
Import ListNotations.
Open Scope nat_scope.
#[local] Instance ascii_mode : Mode := false.

Lemma regular_decides seps p ns m s : ascii seps -> regular seps p ns -> Globs p seps m -> ascii s -> s <> [] -> decides m (den seps (NPattern ns)) s.
Proof. intros As [P [F T]] G Hs Ne. apply (C46_nested p seps ns m P G As F T s Hs). intros E. contradiction. Qed.
Lemma decides_accepts m L s : decides m L s -> (accepts m s <-> L s).
Proof. unfold decides, accepts, rejects. intros [[A B]|[A B]]; split; intros H; try assumption; [congruence|contradiction]. Qed.
Lemma decides_answers m L s : decides m L s -> accepts m s \/ rejects m s.
Proof. intros [[A _]|[A _]]; auto. Qed.
Lemma decides_same m m' L L' s : (L s <-> L' s) -> decides m L s -> decides m' L' s -> same_answer m m' s.
Proof. unfold same_answer. intros E [[A B]|[A B]] [[A' B']|[A' B']]; try tauto. Qed.
Lemma regular_compiles seps p ns : ascii seps -> regular seps p ns -> exists m, Globs p seps m.
Proof. intros As [P [F T]]. destruct (items_phrase seps ns As F T) as [x E]. destruct (p_comp _ _ _ E) as [f C]. eexists. exists (NPattern ns), f. split; [exact P|exact C]. Qed.

(** Fewer separators never lose a match: what a glob accepts it still accepts when some separators are taken away. *)
Theorem C87_fewer_separators p ns seps seps' m m' s : ascii seps -> incl seps' seps -> regular seps p ns -> regular seps' p ns -> Globs p seps m -> Globs p seps' m' ->
  ascii s -> s <> [] -> accepts m s -> accepts m' s.
Proof.
  intros As S R R' G G' Hs Ne A. assert (As' : ascii seps') by (apply Forall_forall; intros c I; apply (proj1 (Forall_forall _ _) As), S, I).
  apply (decides_accepts _ _ _ (regular_decides seps' p ns m' s As' R' G' Hs Ne)). apply (den_fewer seps seps' S _ _ (le_n _)).
  apply (decides_accepts _ _ _ (regular_decides seps p ns m s As R G Hs Ne)), A.
Qed.
(** Without separators * and ** are the same: any pattern and the one with ** for every * give the same answers. *)
Theorem C87_stars_without_separators p p' ns m m' s : regular [] p ns -> regular [] p' (map super ns) -> Globs p [] m -> Globs p' [] m' -> ascii s -> s <> [] -> same_answer m m' s.
Proof.
  intros R R' G G' Hs Ne. assert (A0 : ascii []) by constructor. eapply decides_same; [|apply (regular_decides [] p ns m s A0 R G Hs Ne)|apply (regular_decides [] p' (map super ns) m' s A0 R' G' Hs Ne)].
  symmetry. apply (den_super _ (NPattern ns) (le_n _)).
Qed.
(** {..} as the whole pattern: neither the order of the alternatives nor repeating one matters. *)
Theorem C87_order_of_alternatives p p' seps alts alts' m m' s : ascii seps -> Parse p = POk (NPattern [group alts]) -> Parse p' = POk (NPattern [group alts']) ->
  (forall a, In a alts <-> In a alts') -> alts <> [] -> unshared alts -> (forall a n, In a alts -> In n a -> item false seps n) -> Forall (fits false seps) alts ->
  Globs p seps m -> Globs p' seps m' -> ascii s -> s <> [] -> same_answer m m' s.
Proof.
  intros As P P' E Ne U I0 F G G' Hs Ns.
  assert (U' : unshared alts'). { destruct U as [U1 U2]. split; intros n H; [apply (U1 n)|apply (U2 n)]; intros a Ia; apply H, E, Ia. }
  assert (Ne' : alts' <> []). { destruct alts as [|a alts]; [contradiction|]. intros ->. apply (E a). left. reflexivity. }
  assert (F' : Forall (fits false seps) alts') by (apply Forall_forall; intros a Ia; apply (proj1 (Forall_forall _ _) F), E, Ia).
  assert (I' : forall a n, In a alts' -> In n a -> item false seps n) by (intros a n Ia; apply (I0 a), E, Ia).
  eapply decides_same; [|apply (C46_nested_alternatives p seps alts m P G As Ne I0 F (or_intror U) s Hs); intros X; contradiction
    |apply (C46_nested_alternatives p' seps alts' m' P' G' As Ne' I' F' (or_intror U') s Hs); intros X; contradiction].
  unfold group. rewrite !den_anyof. split; intros [n [I D]]; exists n; (split; [|exact D]); apply in_map_iff in I; destruct I as [a [<- I]]; apply in_map, E, I.
Qed.
(** Braces around a whole pattern change nothing: {p} and p. *)
Theorem C87_braces_around p q seps ns m m' s : ascii seps -> Parse p = POk (NPattern [group [ns]]) -> regular seps q ns -> Globs p seps m -> Globs q seps m' -> ascii s -> s <> [] -> same_answer m m' s.
Proof.
  intros As P R G G' Hs Ne. pose proof R as [_ [F T]]. eapply decides_same; [| |apply (regular_decides seps q ns m' s As R G' Hs Ne)].
  2: { apply (C46_nested_alternatives p seps [ns] m P G As); [discriminate| |constructor; [exact T|constructor]|left; reflexivity|exact Hs|intros X; contradiction].
       intros a n [<-|[]] I. apply (proj1 (Forall_forall _ _) F), I. }
  unfold group. rewrite den_anyof. split; [intros [n [[<-|[]] D]]; exact D|]. intros D. exists (NPattern ns). split; [left; reflexivity|exact D].
Qed.
(** Braces distribute: P{a1,..,an}Q accepts exactly what one of the patterns Pa1Q, .., PanQ accepts (as the user writes them; neighbouring texts
    join), and neither crashes. *)
Theorem C87_distributes seps pre P alts post Q m s : ascii seps -> writes_seq false pre P -> writes_seq false post Q -> alts <> [] -> written alts ->
  (forall a, In a alts -> no_clash (fst a) post /\ no_clash pre (fst a ++ post)) ->
  Forall (item false seps) (pre ++ group (map fst alts) :: post) -> fits false seps (pre ++ group (map fst alts) :: post) ->
  (forall a, In a alts -> Forall (item false seps) (join (pre ++ fst a ++ post)) /\ fits false seps (join (pre ++ fst a ++ post))) ->
  Globs (braced P alts Q) seps m -> ascii s -> s <> [] ->
  (accepts m s <-> exists a m', In a alts /\ Globs (P ++ snd a ++ Q) seps m' /\ accepts m' s)
  /\ (rejects m s <-> forall a, In a alts -> exists m', Globs (P ++ snd a ++ Q) seps m' /\ rejects m' s).
Proof.
  intros As WP WQ Ne W NC F T E G Hs Ns.
  assert (R : regular seps (braced P alts Q) (pre ++ group (map fst alts) :: post)).
  { split; [|split; assumption]. apply parse_written. eexists. split; [reflexivity|]. apply writes_braced; assumption. }
  pose proof (regular_decides seps _ _ m s As R G Hs Ns) as D.
  assert (RA : forall a, In a alts -> regular seps (P ++ snd a ++ Q) (join (pre ++ fst a ++ post))).
  { intros a Ia. split; [|apply E, Ia]. apply parse_written. eexists. split; [reflexivity|]. destruct (NC a Ia) as [N1 N2].
    pose proof (writes_seq_outside _ _ _ (proj1 (Forall_forall _ _) W a Ia) eq_refl) as Wa. pose proof (writes_join _ _ _ Wa _ _ WQ N1) as W1.
    rewrite <- (join_inner false pre _ (snd a ++ Q) W1). apply writes_join; [exact WP|exact W1|apply no_clash_join, N2]. }
  assert (X : forall a m', In a alts -> Globs (P ++ snd a ++ Q) seps m' -> decides m' (cat seps (pre ++ fst a ++ post)) s).
  { intros a m' Ia Gm. pose proof (regular_decides seps _ _ m' s As (RA a Ia) Gm Hs Ns) as Da. assert (EQ : den seps (NPattern (join (pre ++ fst a ++ post))) s <-> cat seps (pre ++ fst a ++ post) s) by (rewrite den_pattern; apply cat_join).
    unfold decides in *. rewrite EQ in Da. exact Da. }
  assert (C : den seps (NPattern (pre ++ group (map fst alts) :: post)) s <-> exists a, In a alts /\ cat seps (pre ++ fst a ++ post) s).
  { rewrite den_pattern, cat_choice. split; [intros [b [I K]]; apply in_map_iff in I; destruct I as [a [<- I]]; exists a; auto|intros [a [I K]]; exists (fst a); split; [apply in_map, I|exact K]]. }
  assert (GA : forall a, In a alts -> exists m', Globs (P ++ snd a ++ Q) seps m') by (intros a Ia; apply (regular_compiles seps _ _ As (RA a Ia))).
  split; split.
  - intros A. apply (decides_accepts _ _ _ D), C in A. destruct A as [a [Ia K]]. destruct (GA a Ia) as [m' Gm]. exists a, m'. split; [exact Ia|]. split; [exact Gm|]. apply (decides_accepts _ _ _ (X a m' Ia Gm)), K.
  - intros [a [m' [Ia [Gm A]]]]. apply (decides_accepts _ _ _ D), C. exists a. split; [exact Ia|]. apply (decides_accepts _ _ _ (X a m' Ia Gm)), A.
  - intros Rj a Ia. destruct (GA a Ia) as [m' Gm]. exists m'. split; [exact Gm|]. destruct (X a m' Ia Gm) as [[A K]|[A _]]; [|exact A]. exfalso.
    assert (B : accepts m s) by (apply (decides_accepts _ _ _ D), C; exists a; auto). unfold accepts, rejects in *. congruence.
  - intros H. destruct D as [[A K]|[A _]]; [|exact A]. exfalso. apply C in K. destruct K as [a [Ia K]]. destruct (H a Ia) as [m' [Gm Rj]].
    pose proof (proj2 (decides_accepts _ _ _ (X a m' Ia Gm)) K) as B. unfold accepts, rejects in *. congruence.
Qed.
(** Not for every pattern: *.{tar*,zip} refuses a.tarball, which *.tar* accepts; so the order of alternatives matters inside a sequence. *)
Theorem C87_distributes_refuted : exists m m' m'', Globs (lit "*.{tar*,zip}") [] m /\ Globs (lit "*.tar*") [] m' /\ Globs (lit "*.{zip,tar*}") [] m''
  /\ rejects m (lit "a.tarball") /\ accepts m' (lit "a.tarball") /\ accepts m'' (lit "a.tarball").
Proof.
  eexists. eexists. eexists. split; [eexists; exists 20; split; [parsed|parsed]|]. split; [eexists; exists 20; split; [parsed|parsed]|]. split; [eexists; exists 20; split; [parsed|parsed]|].
  repeat split; parsed.
Qed.
Print Assumptions C87_fewer_separators.
Print Assumptions C87_stars_without_separators.
Print Assumptions C87_order_of_alternatives.
Print Assumptions C87_braces_around.
Print Assumptions C87_distributes.
Print Assumptions C87_distributes_refuted.

(** *** The hypotheses are met: src/{main,*.test}.go, separator / *)
Definition c87_alts : list alternative := [([NText (lit "main")], lit "main"); ([NAny; NText (lit ".test")], lit "*.test")].
Definition c87_pre : list Node := [NText (lit "src/")].
Definition c87_post : list Node := [NText (lit ".go")].
Lemma encode_one c : (0 < c < 128)%Z -> encode c = [c].
Proof. intros H. rewrite GlobGram.encode_ascii; [reflexivity|lia]. Qed.
Lemma plain_char a c : ((0 <? c) && (c <? 128) && negb (existsb (Z.eqb c) (cEscape :: special_in a)))%Z = true -> (0 < c < 128)%Z /\ ~ In c (cEscape :: special_in a).
Proof.
  intros H. apply andb_true_iff in H. destruct H as [H N]. apply andb_true_iff in H. destruct H as [A B]. apply Z.ltb_lt in A, B. split; [lia|]. intros I. apply negb_true_iff in N.
  assert (X : existsb (Z.eqb c) (cEscape :: special_in a) = true) by (apply existsb_exists; exists c; split; [exact I|apply Z.eqb_refl]). congruence.
Qed.
Lemma plain_text a s : s <> [] -> forallb (fun c => (0 <? c) && (c <? 128) && negb (existsb (Z.eqb c) (cEscape :: special_in a)))%Z s = true -> writes a (NText s) s.
Proof.
  intros Ne H0. assert (H : forall c, In c s -> (0 < c < 128)%Z /\ ~ In c (cEscape :: special_in a)) by (intros c I; apply plain_char; revert c I; apply forallb_forall, H0). clear H0.
  assert (E : utf8 s = s). { clear Ne. induction s as [|c s IH]; [reflexivity|]. unfold utf8 in *. cbn [map concat]. rewrite IH by (intros d I; apply H; right; exact I). rewrite (encode_one c) by (apply H; left; reflexivity). reflexivity. }
  rewrite <- E at 1. constructor; [exact Ne|]. clear E Ne. induction s as [|c s IH]; [constructor|]. destruct (H c (or_introl eq_refl)) as [B NI].
  change (c :: s) with ([c] ++ s) at 2. rewrite <- (encode_one c B). constructor; [|intros I; apply NI; right; exact I|intros ->; apply NI; left; reflexivity|apply IH; intros d I; apply H; right; exact I].
  split; [split; [lia|]|split; [lia|unfold RuneError; lia]]. unfold surrogate. apply andb_false_iff. left. apply Z.leb_gt. lia.
Qed.
Example C87_case : writes_seq false c87_pre (lit "src/") /\ writes_seq false c87_post (lit ".go") /\ written c87_alts
  /\ (forall a, In a c87_alts -> no_clash (fst a) c87_post /\ no_clash c87_pre (fst a ++ c87_post))
  /\ Forall (item false slash) (c87_pre ++ group (map fst c87_alts) :: c87_post) /\ fits false slash (c87_pre ++ group (map fst c87_alts) :: c87_post)
  /\ (forall a, In a c87_alts -> Forall (item false slash) (join (c87_pre ++ fst a ++ c87_post)) /\ fits false slash (join (c87_pre ++ fst a ++ c87_post)))
  /\ braced (lit "src/") c87_alts (lit ".go") = lit "src/{main,*.test}.go" /\ exists m, Globs (lit "src/{main,*.test}.go") slash m /\ accepts m (lit "src/x.test.go") /\ rejects m (lit "src/x/y.test.go").
Proof.
  assert (TX : forall t, forallb (fun c => (0 <=? c) && (c <? 128))%Z t = true -> t <> [] -> item false slash (NText t)).
  { intros t H N. apply text_item; [|exact N]. apply Forall_forall. intros c I. rewrite forallb_forall in H. specialize (H c I). apply andb_true_iff in H. destruct H as [H1 H2]. apply Z.leb_le in H1. apply Z.ltb_lt in H2. lia. }
  assert (ONE : forall n, fits false slash [n]) by (intros n; split; [exact I|]; intros p q [u [mid [v [E _]]]]; destruct mid; discriminate).
  assert (WT : forall a t, t <> [] -> forallb (fun c => (0 <? c) && (c <? 128) && negb (existsb (Z.eqb c) (cEscape :: special_in a)))%Z t = true -> writes_seq a [NText t] t).
  { intros a t N H. rewrite <- (app_nil_r t) at 2. constructor; [apply plain_text; assumption|exact I|constructor]. }
  split; [apply WT; [discriminate|reflexivity]|]. split; [apply WT; [discriminate|reflexivity]|]. split; [|split; [|split; [|split; [|split; [|split]]]]].
  - constructor; [apply WT; [discriminate|reflexivity]|]. constructor; [|constructor]. change (lit "*.test") with ([cAny] ++ lit ".test"). constructor; [constructor|exact I|apply WT; [discriminate|reflexivity]].
  - intros a [<-|[<-|[]]]; split; intros l r t E1 E2; cbn in E2; injection E2 as <- _; split; discriminate || (cbn in E1; destruct l as [|? [|? ?]]; discriminate E1).
  - constructor; [apply TX; [reflexivity|discriminate]|]. constructor; [|constructor; [apply TX; [reflexivity|discriminate]|constructor]].
    apply it_group; [cbn; lia|unshared_tac|exists [NText (lit "main")]; split; [left; reflexivity|discriminate]| | |apply (ordered_sized slash _ _ 4); reflexivity|].
    + intros a n [<-|[<-|[]]]; cbn [In]; intros H; repeat destruct H as [<-|H]; try contradiction; first [apply TX; [reflexivity|discriminate]|constructor; [exact I|discriminate]].
    + constructor; [apply ONE|]. constructor; [|constructor]. split; [split; [follows_tac|exact I]|between_tac].
    + intros _ n [H|[H|[]]]; [injection H as <-|discriminate]. intros B. inversion B as [? NL|]; subst. destruct NL.
  - split; [split; [follows_tac|split; [follows_tac|exact I]]|between_tac].
  - intros a [<-|[<-|[]]]; split; try (constructor; [apply TX; [reflexivity|discriminate]|apply Forall_nil]); try apply ONE.
    + constructor; [apply TX; [reflexivity|discriminate]|]. constructor; [apply it_leaf; [exact I|discriminate]|]. constructor; [apply TX; [reflexivity|discriminate]|constructor].
    + match goal with |- fits _ _ ?x => let y := eval vm_compute in x in change x with y end. split; [split; [follows_tac|split; [follows_tac|exact I]]|].
      intros p q [x [mid [y [E [_ [_ [N W]]]]]]]. destruct mid as [|u [|v [|w mid]]]; try discriminate E; try (contradiction N; reflexivity). injection E; intros; subst. inversion W as [|? ? X _]; subst. destruct X as [X|[_ X]]; discriminate X.
  - reflexivity.
  - eexists. split; [eexists; exists 30; split; [parsed|parsed]|split; parsed].
Qed.
(** *.go, with the separator / and without; **.go; {*.go}. *)
Definition c87_go : list Node := [NAny; NText (lit ".go")].
Example C87_case_small : regular slash (lit "*.go") c87_go /\ regular [] (lit "*.go") c87_go /\ regular [] (lit "**.go") (map super c87_go) /\ Parse (lit "{*.go}") = POk (NPattern [group [c87_go]])
  /\ (exists m, Globs (lit "*.go") slash m /\ accepts m (lit "x.go") /\ rejects m (lit "a/x.go")) /\ (exists m, Globs (lit "*.go") [] m /\ accepts m (lit "a/x.go"))
  /\ (exists m, Globs (lit "**.go") [] m /\ accepts m (lit "a/x.go")) /\ exists m, Globs (lit "{*.go}") slash m /\ accepts m (lit "x.go") /\ rejects m (lit "a/x.go").
Proof.
  assert (TX : forall seps, item false seps (NText (lit ".go"))) by (intros seps; apply text_item; [ascii_tac|discriminate]).
  assert (FI : forall seps n, star n -> fits false seps [n; NText (lit ".go")]).
  { intros seps n St. split.
    - split; [|exact I]. split; [cbn; intros; discriminate|]. split; [intros _ D; discriminate D|]. intros _ [H|H]; [discriminate H|exfalso; apply H; reflexivity].
    - intros p q [x [mid [y [E [La _]]]]]. injection E as <- _. destruct St as [->| ->]; discriminate La. }
  assert (R : forall seps n, star n -> leaf n -> (false = true -> ~ negative_leaf n) -> Forall (item false seps) [n; NText (lit ".go")] /\ fits false seps [n; NText (lit ".go")]).
  { intros seps n St Lf Ng. split; [|apply FI, St]. constructor; [apply it_leaf; assumption|]. constructor; [apply TX|constructor]. }
  split; [split; [parsed|apply R; [first [left; reflexivity|right; reflexivity]|exact I|discriminate]]|]. split; [split; [parsed|apply R; [first [left; reflexivity|right; reflexivity]|exact I|discriminate]]|]. split; [split; [parsed|apply R; [first [left; reflexivity|right; reflexivity]|exact I|discriminate]]|]. split; [parsed|].
  split; [|split; [|split]]; (eexists; split; [eexists; exists 30; split; [parsed|parsed]|repeat split; parsed]).
Qed.
(** {tar*,zip} and {zip,tar*,zip}. *)
Example C87_case_order : unshared c46_tars /\ Parse (lit "{tar*,zip}") = POk (NPattern [group c46_tars])
  /\ Parse (lit "{zip,tar*,zip}") = POk (NPattern [group ([NText (lit "zip")] :: c46_tars)]) /\ (forall a, In a c46_tars <-> In a ([NText (lit "zip")] :: c46_tars))
  /\ (forall a n, In a c46_tars -> In n a -> item false slash n) /\ Forall (fits false slash) c46_tars
  /\ exists m, Globs (lit "{zip,tar*,zip}") slash m /\ accepts m (lit "tarball") /\ rejects m (lit "tar/x").
Proof.
  destruct C46_case_nested_alternatives as [P [I0 [F [U _]]]]. split; [exact U|]. split; [exact P|]. split; [parsed|]. split; [|split; [exact I0|split; [exact F|]]].
  - intros a. unfold c46_tars. cbn [In]. tauto.
  - eexists. split; [eexists; exists 30; split; [parsed|parsed]|split; parsed].
Qed.
