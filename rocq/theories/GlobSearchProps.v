(** * C62: searching the store with a glob. *)
From Coq Require Import String.
From Coq Require Import ZArith Arith List Bool Lia Permutation Sorting.
From Verif Require Import Utf8 GoStr GlobLex GlobMatch GlobCompile GlobSpec GlobFragment GlobTextSpec GlobFactor GlobParse GlobProps1 GlobProps2 GlobProps3 GlobProps4.
From Verif Require FsModel RepoModel RepoSpec RepoLines RepoProps GlobSearch.
Import FsModel RepoModel RepoSpec RepoLines RepoProps GlobSearch.
Import ListNotations.
Open Scope nat_scope.

(** The matching lines of a text: in order, exactly the lines in the language, with their numbers. *)
Definition lines_in (L : str -> Prop) (texts : list str) (ms : list (nat * str)) : Prop :=
  StronglySorted lt (map fst ms) /\ forall n t, In (n, t) ms <-> 1 <= n /\ nth_error texts (n - 1) = Some t /\ L t.
(** What is found in a file: nothing if it cannot be opened or is binary. *)
Definition found_lines (L : str -> Prop) (w : World) (f : str) (ms : list (nat * str)) : Prop :=
  match open_read w f with
  | None => ms = []
  | Some content => exists texts, shown content texts /\ ((binary texts /\ ms = []) \/ (~ binary texts /\ lines_in L texts ms))
  end.
(** Every line the search looks at satisfies P. *)
Definition lines_of_files (w : World) (fs : Files) (P : str -> Prop) : Prop :=
  forall f content texts t, In f (concat (map snd fs)) -> open_read w f = Some content -> shown content texts -> ~ binary texts -> In t texts -> P t.
(** The result: one for each file, with exactly the lines in the language. *)
Definition finds (L : str -> Prop) (w : World) (fs : Files) (o : Found_) : Prop :=
  exists res, o = GFound res /\ Permutation (map fst res) (concat (map snd fs)) /\ forall f ms, In (f, ms) res -> found_lines L w f ms.

Lemma handle_some (m : Matcher) (L : str -> Prop) : forall ts n acc, (forall t, In t ts -> decides m L t) ->
  exists ms, handle_all (glob_handler m) n ts (Some acc) = Some (acc ++ ms) /\ StronglySorted lt (map fst ms) /\ Forall (fun k => n <= k) (map fst ms) /\ forall k t, In (k, t) ms <-> n <= k /\ nth_error ts (k - n) = Some t /\ L t.
Proof.
  induction ts as [|t ts IH]; intros n acc D; cbn [handle_all].
  - exists []. rewrite app_nil_r. split; [reflexivity|]. split; [apply SSorted_nil|]. split; [apply Forall_nil|]. intros k t. split; [intros []|]. intros [_ [X _]]. destruct (k - n); discriminate X.
  - assert (Dt := D t (or_introl eq_refl)). assert (Ds : forall t, In t ts -> decides m L t) by (intros x I0; apply D; right; exact I0).
    assert (K : forall k x, n < k -> nth_error (t :: ts) (k - n) = Some x <-> nth_error ts (k - S n) = Some x) by (intros k x Lk; replace (k - n) with (S (k - S n)) by lia; reflexivity).
    cbn [glob_handler]. destruct Dt as [[A Lt]|[A Lt]]; unfold accepts, rejects in A; rewrite A.
    + destruct (IH (S n) (acc ++ [(n, t)]) Ds) as [ms [E [S1 [F1 H]]]]. exists ((n, t) :: ms). split; [rewrite E, <- app_assoc; reflexivity|]. cbn [map fst]. split; [constructor; [exact S1|eapply Forall_impl; [|exact F1]; cbn; lia]|]. split; [constructor; [lia|eapply Forall_impl; [|exact F1]; cbn; lia]|].
      intros k x. cbn [In]. rewrite H. split.
      * intros [E2|[L1 [L2 L3]]]; [injection E2 as <- <-; rewrite Nat.sub_diag; auto|]. split; [lia|]. split; [apply K; [lia|exact L2]|exact L3].
      * intros [L1 [L2 L3]]. destruct (Nat.eq_dec k n) as [->|Nk]; [left; rewrite Nat.sub_diag in L2; cbn in L2; congruence|right]. split; [lia|]. split; [apply K; [lia|exact L2]|exact L3].
    + destruct (IH (S n) acc Ds) as [ms [E [S1 [F1 H]]]]. exists ms. split; [exact E|]. split; [exact S1|]. split; [eapply Forall_impl; [|exact F1]; cbn; lia|]. intros k x. rewrite H. split.
      * intros [L1 [L2 L3]]. split; [lia|]. split; [apply K; [lia|exact L2]|exact L3].
      * intros [L1 [L2 L3]]. destruct (Nat.eq_dec k n) as [->|Nk]; [rewrite Nat.sub_diag in L2; cbn in L2; congruence|]. split; [lia|]. split; [apply K; [lia|exact L2]|exact L3].
Qed.
Lemma glob_file_found m L w f r : (forall content texts t, open_read w f = Some content -> shown content texts -> ~ binary texts -> In t texts -> decides m L t) -> glob_file m w f r -> exists ms, r = Some ms /\ found_lines L w f ms.
Proof.
  intros D [e G]. unfold found_lines. destruct (open_read w f) as [c|] eqn:O.
  - destruct (shown_exists c) as [ts T]. destruct (C32_lines _ _ _ _ _ _ _ _ O T G) as [[B [-> _]]|[B [-> _]]].
    + exists []. split; [reflexivity|]. exists ts. split; [exact T|]. left. auto.
    + destruct (handle_some m L ts 1 [] (fun t I0 => D c ts t eq_refl T B I0)) as [ms [E [S1 [_ H]]]]. exists ms. split; [exact E|]. exists ts. split; [exact T|]. right. split; [exact B|]. split; [exact S1|exact H].
  - destruct (C32_open_error _ _ _ _ _ _ O G) as [-> _]. exists []. auto.
Qed.
Lemma glob_files_found m L w : forall order acc o, (forall f content texts t, In f order -> open_read w f = Some content -> shown content texts -> ~ binary texts -> In t texts -> decides m L t) ->
  glob_files m w order acc o -> exists res, o = GFound (acc ++ res) /\ map fst res = order /\ forall f ms, In (f, ms) res -> found_lines L w f ms.
Proof.
  intros order acc o D G. induction G as [acc|f fs acc X|f fs acc ms o X G IH].
  - exists []. rewrite app_nil_r. repeat split. intros f ms [].
  - exfalso. destruct (glob_file_found m L w f None) as [ms [E _]]; [|exact X|discriminate]. intros c ts t. apply D. left. reflexivity.
  - destruct (glob_file_found m L w f (Some ms)) as [ms' [E Fd]]; [intros c ts t; apply D; left; reflexivity|exact X|]. injection E as <-.
    destruct IH as [res [-> [E H]]]; [intros g c ts t Ig; apply D; right; exact Ig|]. exists ((f, ms) :: res). split; [rewrite <- app_assoc; reflexivity|]. split; [cbn [map fst]; rewrite E; reflexivity|]. intros g ms' [E'|I0]; [injection E' as <- <-; exact Fd|apply H, I0].
Qed.
Lemma in_order_perm fs order : in_order fs order -> Permutation order (concat (map snd fs)).
Proof.
  intros [fs' [P ->]]. induction P as [|x l l' P IH|x y l|l l' l'' P1 IH1 P2 IH2]; cbn [map concat].
  - constructor.
  - apply Permutation_app_head. exact IH.
  - rewrite !app_assoc. apply Permutation_app_tail. apply Permutation_app_comm.
  - eapply Permutation_trans; eassumption.
Qed.
Lemma search_finds w fs query seps t L o : Parse query = POk t -> GlobSearch w fs query seps o -> (forall m, Globs query seps m -> lines_of_files w fs (decides m L)) -> finds L w fs o.
Proof.
  intros P G D. inversion G as [E|m order o' Gm IO GF]; subst; [congruence|]. pose proof (in_order_perm _ _ IO) as PM.
  destruct (glob_files_found m L w order [] o) as [res [-> [E H]]]; [|exact GF|].
  - intros f c ts x If. apply (D m Gm). apply (Permutation_in _ PM), If.
  - exists res. split; [reflexivity|]. split; [rewrite E; exact PM|exact H].
Qed.
(** ** The search *)
(** With a pattern of texts and stars (not text ** text): in every store, whatever the files contain, in every order of the map, the search returns
    one result per file with exactly the lines the pattern stands for; it does not fail and does not panic. *)
Theorem C62_texts_and_stars w fs query seps ns o : writes_seq false ns query -> ascii seps -> Forall text_or_star ns -> alternating ns -> (forall a b, ~ text_star_text seps ns a b) ->
  GlobSearch w fs query seps o -> finds (den seps (NPattern ns)) w fs o.
Proof.
  intros W A F AL NB G. assert (P : Parse query = POk (NPattern ns)) by (apply parse_written; exists ns; auto). apply (search_finds w fs query seps _ _ o P G). intros m Gm f c ts t _ _ _ _ _. apply (C46_texts_and_stars query seps ns m P Gm A F AL NB).
Qed.
(** In particular the lines that contain a text: search for the quoted text between stars. *)
Definition quoted (cs : list Z) : str := lit "*" ++ QuoteMeta (utf8 cs) ++ lit "*".
Lemma quoted_writes cs : cs <> [] -> Forall writable cs -> writes_seq false [NAny; NText (utf8 cs); NAny] (quoted cs).
Proof.
  intros Ne F. unfold quoted. apply (ws_cons false NAny [NText (utf8 cs); NAny] (lit "*") (QuoteMeta (utf8 cs) ++ lit "*")); [constructor|exact I|]. apply (ws_cons false (NText (utf8 cs)) [NAny]); [constructor; [exact Ne|apply QuoteMeta_writes, F]|exact I|].
  apply (ws_cons false NAny [] (lit "*") []); [constructor|exact I|constructor].
Qed.
Lemma utf8_nonempty cs : cs <> [] -> utf8 cs <> [].
Proof. destruct cs as [|c cs]; [contradiction|]. intros _ E. apply app_eq_nil in E. destruct E as [E _]. exact (encode_nonempty c E). Qed.
Theorem C62_contains w fs cs o : cs <> [] -> Forall writable cs -> GlobSearch w fs (quoted cs) [] o -> finds (fun t => exists u v, t = u ++ utf8 cs ++ v) w fs o.
Proof.
  intros Ne F G. destruct (C62_texts_and_stars w fs (quoted cs) [] [NAny; NText (utf8 cs); NAny] o) as [res [-> [P H]]].
  - apply quoted_writes; assumption.
  - constructor.
  - repeat constructor; [exists cs; split; [eapply Forall_impl; [|exact F]; intros c [V _]; exact V|reflexivity]|apply utf8_nonempty, Ne].
  - cbn. unfold kinds_differ, star. split; [left; split; [auto|intros [?|?]; discriminate]|]. split; [right; split; [intros [?|?]; discriminate|auto]|exact I].
  - intros a b [n [_ E]]. discriminate E.
  - exact G.
  - exists res. split; [reflexivity|]. split; [exact P|]. intros f ms I0. specialize (H f ms I0). unfold found_lines in *. destruct (open_read w f) as [c|]; [|exact H]. destruct H as [ts [T [B|[B [S1 K]]]]]; exists ts; (split; [exact T|]); [left; exact B|right]. split; [exact B|]. split; [exact S1|].
    intros n t. rewrite K. assert (E : den [] (NPattern [NAny; NText (utf8 cs); NAny]) t <-> exists u v, t = u ++ utf8 cs ++ v).
    { rewrite den_pattern. cbn [cat den]. assert (Tr : forall l : list Z, Forall (fun c => ~ In c []) l) by (intros l; apply Forall_forall; intros ? _ []). split.
      - intros [u [v [-> [_ [x [y [-> [-> [z [q [-> [_ ->]]]]]]]]]]]]. rewrite app_nil_r. eauto.
      - intros [u [v ->]]. exists u, (utf8 cs ++ v). split; [reflexivity|]. split; [apply Tr|]. exists (utf8 cs), v. split; [reflexivity|]. split; [reflexivity|]. exists v, []. rewrite app_nil_r. split; [reflexivity|]. split; [apply Tr|reflexivity]. }
    rewrite E. reflexivity.
Qed.
(** The quoted text alone finds the lines equal to it, like DirectSearch. *)
Theorem C62_quoted_is_direct w fs cs o : Forall writable cs -> GlobSearch w fs (QuoteMeta (utf8 cs)) [] o -> finds (fun t => t = utf8 cs) w fs o.
Proof.
  intros F G. destruct (C42_quote_literal cs [] F) as [[m0 [t [fu [P _]]]] H]. apply (search_finds w fs _ [] t _ o P G). intros m Gm f c ts x _ _ _ _ _. destruct (H m Gm x) as [A R].
  destruct (list_eq_dec Z.eq_dec x (utf8 cs)) as [E|N]; [left; split; [apply A, E|exact E]|right; split; [apply R, N|exact N]].
Qed.
(** With the terms of C46 (classes, ?, alternatives): if the lines are ASCII (and, for a lone ? or negated class, none is empty). *)
Theorem C62_terms w fs query seps ns o : writes_seq false ns query -> ascii seps -> Forall term ns -> sequence seps ns -> (forall a b, ~ between seps ns a b) ->
  lines_of_files w fs ascii -> (forall n, ns = [n] -> negative n -> lines_of_files w fs (fun t => t <> [])) ->
  GlobSearch w fs query seps o -> finds (den seps (NPattern ns)) w fs o.
Proof.
  intros W A F S1 NB LA LN G. assert (P : Parse query = POk (NPattern ns)) by (apply parse_written; exists ns; auto). apply (search_finds w fs query seps _ _ o P G). intros m Gm f c ts t If O T B It.
  apply (C46_sequences query seps ns m P Gm A F S1 NB t (LA f c ts t If O T B It)). intros Et n En Nn. exact (LN n En Nn f c ts t If O T B It Et).
Qed.
(** A pattern that does not parse is an error and nothing is searched; every search ends. *)
Theorem C62_error w fs query seps o : GlobSearch w fs query seps o -> (o = GErr <-> Parse query = PErr).
Proof.
  intros G. inversion G as [E|m order o' [t [fu [P C]]] IO GF]; subst; [tauto|]. split; [|congruence]. intros ->. exfalso. clear -GF. revert GF. generalize (@nil (str * list (nat * str))) as acc. induction order as [|f order IH]; intros acc GF; inversion GF; subst; eauto.
Qed.
Theorem C62_ends w fs query seps : exists o, GlobSearch w fs query seps o.
Proof.
  destruct (C43_parse_total query) as [[t P]|P]; [|exists GErr; constructor; exact P]. destruct (C47_compile_total t seps) as [fu [m C]]. assert (X : forall order acc, exists o, glob_files m w order acc o).
  { induction order as [|f order IH]; intros acc; [exists (GFound acc); constructor|]. destruct (C32_total (glob_handler m) w f (Some [])) as [[r [e R]] _]. destruct r as [ms|]; [|exists GPanic; apply gf_panic; exists e; exact R]. destruct (IH (acc ++ [(f, ms)])) as [o O]. exists o. eapply gf_next; [exists e; exact R|exact O]. }
  destruct (X (concat (map snd fs)) []) as [o O]. exists o. apply (gs_run _ _ _ _ m (concat (map snd fs))); [exists t, fu; auto|exists fs; split; [apply Permutation_refl|reflexivity]|exact O].
Qed.

Print Assumptions C62_texts_and_stars.
Print Assumptions C62_contains.
Print Assumptions C62_quoted_is_direct.
Print Assumptions C62_terms.
Print Assumptions C62_error.
Print Assumptions C62_ends.
(** A store with one entry whose second line contains "user:"; the search returns that line with its number. *)
Definition c62_world : World := {| tree := [(lit "vault", Dir [(lit "bank", Dir [(lit "abn", File (lit "pw" ++ [10]%Z ++ lit "user: bob" ++ [10]%Z ++ lit "user"))])])]; cwd := [lit "vault"] |}.
Definition c62_files : Files := [(lit "bank", [lit "bank/abn"])].
Example C62_case : Forall writable (lit "user:") /\ quoted (lit "user:") = lit "*user:*" /\ Scan c62_world (lit "/vault") = Scanned c62_files
  /\ forall o, GlobSearch c62_world c62_files (quoted (lit "user:")) [] o -> exists ms, o = GFound [(lit "bank/abn", ms)] /\ In (2, lit "user: bob") ms /\ forall n t, In (n, t) ms -> n = 2.
Proof.
  assert (F : Forall writable (lit "user:")). { repeat constructor; unfold valid_rune; cbn; try lia; try discriminate; intros X; try discriminate X. }
  split; [exact F|]. split; [vm_compute; reflexivity|]. split; [vm_compute; reflexivity|].
  intros o G. destruct (C62_contains c62_world c62_files (lit "user:") o ltac:(discriminate) F G) as [res [-> [P H]]]. cbn in P. apply Permutation_sym, Permutation_length_1_inv in P.
  destruct res as [|[f ms] [|? ?]]; try discriminate P. cbn in P. injection P as ->. exists ms. split; [reflexivity|]. specialize (H _ ms (or_introl eq_refl)). unfold found_lines in H.
  match type of H with context [open_read ?w ?f] => replace (open_read w f) with (Some (lit "pw" ++ [10]%Z ++ lit "user: bob" ++ [10]%Z ++ lit "user")) in H by (vm_compute; reflexivity) end.
  assert (T : shown (lit "pw" ++ [10]%Z ++ lit "user: bob" ++ [10]%Z ++ lit "user") [lit "pw"; lit "user: bob"; lit "user"]).
  { exists [lit "pw"; lit "user: bob"; lit "user"], [lit "pw"; lit "user: bob"; lit "user"]. split; [|split].
    - apply (fl_line (lit "pw") (lit "user: bob" ++ [10]%Z ++ lit "user")); [cbn; intuition discriminate|]. apply (fl_line (lit "user: bob") (lit "user")); [cbn; intuition discriminate|]. apply fl_last; [discriminate|cbn; intuition discriminate].
    - repeat (apply rd_line; [cbn [length lit map list_ascii_of_string app]; lia|]). constructor.
    - repeat apply Forall2_cons; try apply Forall2_nil; right; (split; [reflexivity|]); intros a E; apply (f_equal (@rev Z)) in E; rewrite rev_app_distr in E; discriminate E. }
  destruct H as [ts [T' K]]. rewrite (shown_unique _ _ _ T' T) in K. destruct K as [[B _]|[_ [_ K]]]; [cbn in B; intuition discriminate|]. split.
  - apply K. split; [lia|]. split; [reflexivity|]. exists [], (lit " bob"). reflexivity.
  - intros n t I0. apply K in I0. destruct I0 as [L [N [u [v E]]]]. apply (f_equal (@length Z)) in E. rewrite !app_length in E. replace (length (utf8 (lit "user:"))) with 5 in E by (vm_compute; reflexivity). destruct n as [|[|[|[|n]]]]; cbn in N; [lia| |reflexivity| |destruct n; discriminate N]; injection N as <-; cbn in E; lia.
Qed.
