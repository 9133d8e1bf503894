(** * C71: the commands globtest and globdraw. *)
From Coq Require Import String.
From Coq Require Import ZArith Arith List Bool Lia.
From Verif Require Import Utf8 GoStr GlobLex GlobMatch GlobCompile GlobSpec GlobParse GlobGramSpec GlobGram GlobProps1 GlobProps2 GlobTool.
Import ListNotations.
Open Scope nat_scope.

(** ** Specification *)
(** A comma separated list: the pieces hold no comma and stand with commas between them; there is at least one piece. *)
Definition comma : Z := 44%Z.
Inductive comma_list : list str -> str -> Prop :=
  | cl_last x : ~ In comma x -> comma_list [x] x
  | cl_more x xs s : ~ In comma x -> comma_list xs s -> comma_list (x :: xs) (x ++ [comma] ++ s).
(** The separator a piece stands for: one character for itself; nothing at all, or a byte that is no character, for U+FFFD. *)
Inductive stands_for : str -> Z -> Prop :=
  | sf_char r : valid_rune r -> stands_for (encode r) r
  | sf_nothing : stands_for [] RuneError
  | sf_stray b : (128 <= b)%Z -> stands_for [b] RuneError.
(** What globtest prints for an answer of the glob. *)
Definition answer (m : Matcher) (fixture : str) (verbose : bool) (o : Outcome) : Prop :=
  let prefix := if verbose then lit "result: " else [] in
  (accepts m fixture /\ o = Printed (prefix ++ lit "true")) \/ (rejects m fixture /\ o = Printed (prefix ++ lit "false")) \/ (panics m fixture /\ o = Crashed).

(** ** Proofs *)
Lemma split_comma_list s : comma_list (Split s comma) s.
Proof.
  induction s as [|b t IH]; [constructor; intros []|]. cbn [Split]. destruct (Z.eqb_spec b comma) as [->|N].
  - apply (cl_more [] _ t); [intros []|exact IH].
  - destruct IH as [x Nx|x xs s Nx IH].
    + constructor. intros [E|I]; [exact (N E)|exact (Nx I)].
    + apply (cl_more (b :: x) xs s); [|exact IH]. intros [E|I]; [exact (N E)|exact (Nx I)].
Qed.
Lemma comma_list_unique xs s : comma_list xs s -> Split s comma = xs.
Proof.
  induction 1 as [x N|x xs s N C IH].
  - induction x as [|b x IH]; [reflexivity|]. cbn [Split]. destruct (Z.eqb_spec b comma) as [->|Nb]; [destruct N; left; reflexivity|]. rewrite IH; [reflexivity|]. intros I. apply N. right. exact I.
  - induction x as [|b x IHx]; cbn [app Split].
    + replace (comma =? comma)%Z with true by reflexivity. cbn [app] in *. rewrite IH. reflexivity.
    + destruct (Z.eqb_spec b comma) as [->|Nb]; [destruct N; left; reflexivity|]. cbn [app] in IHx. rewrite IHx; [reflexivity|]. intros I. apply N. right. exact I.
Qed.
Lemma decode_error s w : bytes s -> decode s = (RuneError, w) -> w <= 1 \/ exists t, s = encode RuneError ++ t /\ w = 3.
Proof.
  intros B D. destruct s as [|b0 s1]; [injection D as <-; lia|]. unfold decode in D. inversion B as [|? ? B0 _]; subst.
  destruct (Z.ltb_spec b0 128) as [L|G]; [injection D as E _; unfold RuneError in E; lia|].
  destruct s1 as [|b1 s2]; [injection D as <-; lia|]. destruct (ok2 b0 b1) eqn:O2.
  { injection D as E _. unfold ok2, cont in O2. rewrite andb_true_iff, !in_range_true in O2. unfold val2, RuneError in E. lia. }
  destruct s2 as [|b2 s3]; [injection D as <-; lia|]. destruct (ok3 b0 b1 b2) eqn:O3.
  { injection D as E <-. right. exists s3. split; [|reflexivity]. unfold ok3, cont in O3. rewrite !andb_true_iff, !orb_true_iff, !andb_true_iff, !orb_true_iff, !in_range_true in O3. unfold val3, RuneError in E.
    assert (b0 = 239)%Z by lia. assert (b1 = 191)%Z by lia. assert (b2 = 189)%Z by lia. subst. reflexivity. }
  destruct s3 as [|b3 s4]; [injection D as <-; lia|]. destruct (ok4 b0 b1 b2 b3) eqn:O4; [|injection D as <-; lia].
  injection D as E _. unfold ok4, cont in O4. rewrite !andb_true_iff, !orb_true_iff, !andb_true_iff, !in_range_true in O4. unfold val4, RuneError in E. lia.
Qed.
Lemma valid_error : valid_rune RuneError.
Proof. split; [unfold RuneError; lia|reflexivity]. Qed.
Lemma stands_decode x r : stands_for x r -> decode x = (r, length x).
Proof.
  intros [c V| |b G].
  - rewrite <- (app_nil_r (encode c)) at 1. apply decode_encode. exact V.
  - reflexivity.
  - unfold decode. destruct (Z.ltb_spec b 128); [lia|reflexivity].
Qed.
Lemma decode_stands x r w : bytes x -> decode x = (r, w) -> length x <= w -> stands_for x r.
Proof.
  intros B D L. destruct (Z.eq_dec r RuneError) as [->|N].
  - destruct (decode_error x w B D) as [L1|[t [-> ->]]].
    + destruct x as [|b [|b' x]]; [constructor| |cbn in L; lia]. constructor. unfold decode in D. destruct (Z.ltb_spec b 128) as [L2|G]; [injection D as E _; unfold RuneError in E; lia|lia].
    + destruct t as [|c t]; [|rewrite app_length in L; cbn in L; lia]. rewrite app_nil_r. constructor. exact valid_error.
  - destruct (decode_inv x r w B D N) as [V E]. rewrite skipn_all2, app_nil_r in E by exact L. rewrite E. constructor. exact V.
Qed.
Lemma loop_some : forall pieces acc seps, Forall bytes pieces -> (separators_loop pieces acc = Some seps <-> exists rs, Forall2 stands_for pieces rs /\ seps = acc ++ rs).
Proof.
  induction pieces as [|x pieces IH]; intros acc seps B.
  - cbn [separators_loop]. split; [intros [= <-]; exists []; rewrite app_nil_r; auto|]. intros [rs [F ->]]. inversion F; subst. rewrite app_nil_r. reflexivity.
  - inversion B as [|? ? Bx Bs]; subst. cbn [separators_loop]. destruct (decode x) as [r w] eqn:D. split.
    + destruct (Nat.ltb_spec w (length x)) as [L|L]; [discriminate|]. intros E. apply IH in E; [|exact Bs]. destruct E as [rs [F ->]]. exists (r :: rs). rewrite <- app_assoc. split; [|reflexivity]. constructor; [exact (decode_stands x r w Bx D L)|exact F].
    + intros [rs [F ->]]. inversion F as [|? r' ? rs' S0 F']; subst. assert (D' := stands_decode _ _ S0). rewrite D in D'. injection D' as -> ->. rewrite Nat.ltb_irrefl. apply IH; [exact Bs|]. exists rs'. rewrite <- app_assoc. auto.
Qed.
Lemma loop_none : forall pieces acc, Forall bytes pieces -> (separators_loop pieces acc = None <-> Exists (fun x => forall r, ~ stands_for x r) pieces).
Proof.
  intros pieces acc B. split.
  - revert acc. induction B as [|x pieces Bx Bs IH]; intros acc E; cbn [separators_loop] in E; [discriminate|]. destruct (decode x) as [r w] eqn:D. destruct (Nat.ltb_spec w (length x)) as [L|L].
    + left. intros r' S0. apply stands_decode in S0. rewrite D in S0. injection S0 as _ ->. lia.
    + right. exact (IH _ E).
  - intros X. destruct (separators_loop pieces acc) as [seps|] eqn:E; [|reflexivity]. exfalso. apply loop_some in E; [|exact B]. destruct E as [rs [F _]].
    apply Exists_exists in X. destruct X as [x [I N]]. clear B. induction F as [|y r ys rs S0 F IH]; [destruct I|]. destruct I as [->|I]; [exact (N r S0)|exact (IH I)].
Qed.
Lemma pieces_bytes xs s : comma_list xs s -> bytes s -> Forall bytes xs.
Proof.
  induction 1 as [x N|x xs s N C IH]; intros B; [constructor; [exact B|constructor]|]. unfold bytes in B. rewrite !Forall_app in B. destruct B as [Bx [_ Bs]]. constructor; [exact Bx|exact (IH Bs)].
Qed.

(** Every value of -s is such a list, of exactly one kind of pieces. *)
Theorem C71_pieces s : exists xs, comma_list xs s /\ forall ys, comma_list ys s -> ys = xs.
Proof. exists (Split s comma). split; [apply split_comma_list|]. intros ys C. symmetry. apply comma_list_unique. exact C. Qed.
Print Assumptions C71_pieces.
(** A piece stands for at most one separator. *)
Theorem C71_one_separator x r r' : stands_for x r -> stands_for x r' -> r = r'.
Proof. intros A B. apply stands_decode in A, B. congruence. Qed.
Print Assumptions C71_one_separator.

(** What globtest does, in each case; exactly one of them applies (C71_pieces, C43). *)
Theorem C71_globtest pattern sep fixture verbose pieces o : bytes sep -> comma_list pieces sep -> globtest pattern sep fixture verbose o ->
  (pattern = [] /\ o = Usage)
  \/ (pattern <> [] /\ Exists (fun x => forall r, ~ stands_for x r) pieces /\ o = BadSeparator)
  \/ (exists seps, pattern <> [] /\ Forall2 stands_for pieces seps /\ Parse pattern = PErr /\ o = BadPattern)
  \/ (exists seps m, pattern <> [] /\ Forall2 stands_for pieces seps /\ Globs pattern seps m /\ answer m fixture verbose o).
Proof.
  intros B C G. assert (E := comma_list_unique _ _ C). unfold comma in E. assert (Bp := pieces_bytes _ _ C B). destruct G as [P|P L|seps P L Q|seps m P L Q A|seps m b P L Q A]; try rewrite E in L.
  - left. auto.
  - right. left. split; [exact P|]. split; [|reflexivity]. apply (loop_none pieces [] Bp). exact L.
  - right. right. left. apply loop_some in L; [|exact Bp]. destruct L as [rs [F ->]]. exists rs. cbn [app] in *. auto.
  - right. right. right. apply loop_some in L; [|exact Bp]. destruct L as [rs [F ->]]. cbn [app] in Q. exists rs, m. split; [exact P|]. split; [exact F|]. split; [exact Q|]. right. right. auto.
  - right. right. right. apply loop_some in L; [|exact Bp]. destruct L as [rs [F ->]]. cbn [app] in Q. exists rs, m. split; [exact P|]. split; [exact F|]. split; [exact Q|]. destruct b; [left|right; left]; auto.
Qed.
Print Assumptions C71_globtest.
(** It always ends in exactly one way. *)
Theorem C71_globtest_one_outcome pattern sep fixture verbose : exists o, globtest pattern sep fixture verbose o /\ forall o', globtest pattern sep fixture verbose o' -> o' = o.
Proof.
  destruct pattern as [|p0 p]; [exists Usage; split; [constructor; reflexivity|]; intros o' H; inversion H; congruence|].
  assert (N : p0 :: p <> []) by discriminate. set (pat := p0 :: p) in *. clearbody pat.
  destruct (separators_loop (Split sep 44%Z) []) as [seps|] eqn:L; [|exists BadSeparator; split; [constructor; assumption|]; intros o' H; inversion H; congruence].
  destruct (C43_parse_total pat) as [[t P]|P].
  - destruct (C47_glob_unique pat seps t P) as [m [G U]]. destruct (Match m fixture) as [b|] eqn:M.
    + exists (Printed ((if verbose then lit "result: " else []) ++ bool_text b)). split; [exact (gt_answer _ _ _ _ _ _ _ N L G M)|].
      intros o' H. inversion H as [|? L2|s2 ? L2 P2|s2 m2 ? L2 G2 M2|s2 m2 b2 ? L2 G2 M2]; subst; try congruence; rewrite L in L2; injection L2 as <-; try congruence; apply U in G2; congruence.
    + exists Crashed. split; [exact (gt_crash _ _ _ _ _ _ N L G M)|].
      intros o' H. inversion H as [|? L2|s2 ? L2 P2|s2 m2 ? L2 G2 M2|s2 m2 b2 ? L2 G2 M2]; subst; try congruence; rewrite L in L2; injection L2 as <-; try congruence; apply U in G2; congruence.
  - exists BadPattern. split; [exact (gt_pattern _ _ _ _ _ N L P)|].
    intros o' H. inversion H as [|? L2|s2 ? L2 P2|s2 m2 ? L2 G2 M2|s2 m2 b2 ? L2 G2 M2]; subst; try congruence; destruct G2 as [t [f [P3 _]]]; congruence.
Qed.
Print Assumptions C71_globtest_one_outcome.
(** So with characters between commas as -s, the answer is the glob's with those characters as separators. *)
Theorem C71_listed pattern sep seps m fixture verbose o : pattern <> [] -> bytes sep -> Forall valid_rune seps -> comma_list (map encode seps) sep -> Globs pattern seps m ->
  globtest pattern sep fixture verbose o -> answer m fixture verbose o.
Proof.
  intros N B V C G H. assert (F : Forall2 stands_for (map encode seps) seps). { clear - V. induction V as [|r rs Vr V IH]; [constructor|]. constructor; [constructor; exact Vr|exact IH]. }
  assert (U : forall seps', Forall2 stands_for (map encode seps) seps' -> seps' = seps).
  { revert F. generalize (map encode seps). clear. intros xs F. induction F as [|x r xs rs S0 F IH]; intros s' F'; inversion F' as [|? r' ? rs' S1 F1]; subst; [reflexivity|]. rewrite (C71_one_separator _ _ _ S1 S0), (IH _ F1). reflexivity. }
  destruct (C71_globtest _ _ _ _ _ _ B C H) as [[E _]|[[_ [X _]]|[[s2 [_ [_ [P _]]]]|[s2 [m2 [_ [F2 [G2 A]]]]]]]].
  - congruence.
  - exfalso. apply Exists_exists in X. destruct X as [x [I Nx]]. apply in_map_iff in I. destruct I as [r [<- I]]. rewrite Forall_forall in V. exact (Nx r (sf_char r (V r I))).
  - destruct G as [t [f [P3 _]]]. congruence.
  - rewrite (U s2 F2) in G2. destruct G as [t [f [P G]]]. destruct (C47_glob_unique pattern seps t P) as [m' [_ U2]]. rewrite (U2 m (ex_intro _ t (ex_intro _ f (conj P G)))), <- (U2 m2 G2). exact A.
Qed.
Print Assumptions C71_listed.
(** globdraw draws the glob with those separators, and the glob without separators when -s is not given or empty. *)
Theorem C71_globdraw pattern sep pieces o : bytes sep -> comma_list pieces sep -> globdraw pattern sep o ->
  (pattern = [] /\ o = inl Usage)
  \/ (pattern <> [] /\ sep <> [] /\ Exists (fun x => forall r, ~ stands_for x r) pieces /\ o = inl BadSeparator)
  \/ (pattern <> [] /\ Parse pattern = PErr /\ o = inl BadPattern)
  \/ (exists m, pattern <> [] /\ sep = [] /\ Globs pattern [] m /\ o = inr m)
  \/ (exists seps m, pattern <> [] /\ sep <> [] /\ Forall2 stands_for pieces seps /\ Globs pattern seps m /\ o = inr m).
Proof.
  intros B C G. assert (E := comma_list_unique _ _ C). unfold comma in E. assert (Bp := pieces_bytes _ _ C B). unfold draw_separators in G.
  destruct G as [P|P L|seps P L Q|seps m P L Q]; unfold draw_separators in *.
  - auto.
  - right. left. destruct sep as [|s0 s]; [discriminate|]. split; [exact P|]. split; [discriminate|]. split; [|reflexivity]. cbn [length Nat.ltb Nat.leb] in L. rewrite E in L. apply (loop_none pieces [] Bp). exact L.
  - right. right. left. auto.
  - right. right. right. destruct sep as [|s0 s].
    + left. cbn in L. injection L as <-. exists m. auto.
    + right. cbn [length Nat.ltb Nat.leb] in L. rewrite E in L. apply loop_some in L; [|exact Bp]. destruct L as [rs [F ->]]. exists rs, m. split; [exact P|]. split; [discriminate|]. auto.
Qed.
Print Assumptions C71_globdraw.
(** Without -s globtest does not match without separators: U+FFFD, and every byte that is no character, is one. *)
Lemma no_s_answer pattern m fixture verbose o : pattern <> [] -> Globs pattern [RuneError] m -> globtest pattern [] fixture verbose o -> answer m fixture verbose o.
Proof.
  intros N G H. assert (C : comma_list [[]] []) by (constructor; intros []). destruct (C71_globtest _ _ _ _ _ _ (Forall_nil _) C H) as [[E _]|[[_ [X _]]|[[s2 [_ [_ [P _]]]]|[s2 [m2 [_ [F2 [G2 A]]]]]]]].
  - congruence.
  - exfalso. inversion X as [? ? Nx|? ? Nx]; subst; [exact (Nx RuneError sf_nothing)|inversion Nx].
  - destruct G as [t [f [P3 _]]]. congruence.
  - inversion F2 as [|? r ? rs S0 F3]; subst. inversion F3; subst. rewrite (C71_one_separator _ _ _ S0 sf_nothing) in G2.
    destruct G as [t [f [P G]]]. destruct (C47_glob_unique pattern [RuneError] t P) as [m' [_ U2]]. rewrite (U2 m (ex_intro _ t (ex_intro _ f (conj P G)))), <- (U2 m2 G2). exact A.
Qed.
Theorem C71_no_separators pattern m fixture verbose o : pattern <> [] -> Globs pattern [RuneError] m -> globtest pattern [] fixture verbose o -> answer m fixture verbose o.
Proof. exact (no_s_answer pattern m fixture verbose o). Qed.
Print Assumptions C71_no_separators.
Theorem C71_star_without_s fixture o : globtest (lit "*") [] fixture false o -> (o = Printed (lit "true") /\ ~ In RuneError (runes fixture)) \/ (o = Printed (lit "false") /\ In RuneError (runes fixture)).
Proof.
  intros H. assert (G : Globs (lit "*") [RuneError] (MAny [RuneError])) by (exists (NPattern [NAny]), 20; split; vm_compute; reflexivity).
  assert (M : Match (MAny [RuneError]) fixture = Some (match IndexAnyRunes fixture [RuneError] with None => true | Some _ => false end)) by reflexivity.
  assert (X : IndexAnyRunes fixture [RuneError] = match find (fun ir => (snd ir =? RuneError)%Z) (range_str fixture) with Some (i, _) => Some i | None => None end)
    by (cbn [IndexAnyRunes]; unfold index_rune; replace ((0 <=? RuneError) && (RuneError <? 128))%Z with false by reflexivity; rewrite Z.eqb_refl; destruct (find _ _) as [[i ?]|]; reflexivity).
  rewrite X in M. destruct (no_s_answer (lit "*") _ _ _ _ ltac:(discriminate) G H) as [[A ->]|[[A ->]|[A ->]]]; unfold accepts, rejects, panics in A; rewrite M in A; destruct (find _ _) as [[i r]|] eqn:F; try discriminate A.
  - left. split; [reflexivity|]. unfold runes. intros I. apply in_map_iff in I. destruct I as [ir [E I]]. assert (Q := find_none _ _ F ir I). cbn beta in Q. rewrite E in Q. discriminate Q.
  - right. split; [reflexivity|]. apply find_some in F. destruct F as [I E]. cbn [snd] in E. apply Z.eqb_eq in E. subst r. unfold runes. apply in_map_iff. exists (i, RuneError). auto.
Qed.
Print Assumptions C71_star_without_s.
(** The file name latin1-"café" (a byte 0xE9): globtest -p '*' says false, the glob without separators accepts it. *)
Theorem C71_no_s_is_no_separators_refuted : exists fixture m, globtest (lit "*") [] fixture false (Printed (lit "false")) /\ Globs (lit "*") [] m /\ accepts m fixture.
Proof.
  exists (lit "caf" ++ [233%Z]). exists MSuper. split; [|split; [exists (NPattern [NAny]), 20; split; vm_compute; reflexivity|vm_compute; reflexivity]].
  apply (gt_answer _ _ _ false [RuneError] (MAny [RuneError]) false); [discriminate|reflexivity|exists (NPattern [NAny]), 20; split; vm_compute; reflexivity|vm_compute; reflexivity].
Qed.
Print Assumptions C71_no_s_is_no_separators_refuted.

(** Non-vacuity. *)
Example C71_case_listed : comma_list (map encode [47; 233]%Z) (lit "/," ++ encode 233) /\ globtest (lit "*.go") (lit "/," ++ encode 233) (lit "a/b.go") true (Printed (lit "result: false")).
Proof.
  split; [apply (cl_more (encode 47) [encode 233] (encode 233)); [intros [E|[]]; discriminate E|constructor; intros [E|[E|[]]]; discriminate E]|].
  apply (gt_answer _ _ _ true [47; 233]%Z (MSuffixAny (lit ".go") [47; 233]%Z) false); [discriminate|reflexivity|exists (NPattern [NAny; NText (lit ".go")]), 20; split; vm_compute; reflexivity|vm_compute; reflexivity].
Qed.
Example C71_case_bad : globtest (lit "*") (lit "/,ab") [] false BadSeparator.
Proof. apply gt_sep; [discriminate|reflexivity]. Qed.
Example C71_case_pattern : globtest (lit "[") (lit "/") [] false BadPattern.
Proof. apply (gt_pattern _ _ _ _ [47%Z]); [discriminate|reflexivity|vm_compute; reflexivity]. Qed.
Example C71_case_draw : globdraw (lit "*.go") [] (inr (MSuffix (lit ".go"))).
Proof. apply (gd_draw _ _ []); [discriminate|reflexivity|exists (NPattern [NAny; NText (lit ".go")]), 20; split; vm_compute; reflexivity]. Qed.
