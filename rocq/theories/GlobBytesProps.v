(** * C46, C62 on every byte string: nested patterns without ? and negated classes. *)
From Coq Require Import String.
From Coq Require Import ZArith Arith List Bool Lia Permutation.
From Verif Require Import Utf8 GoStr GlobLex GlobMatch GlobCompile GlobSpec GlobFragment GlobParse GlobFactor GlobSem GlobGlue GlobLeaf GlobSeq GlobProps3 GlobNestSpec GlobNest GlobNestProps.
From Verif Require FsModel RepoModel RepoSpec RepoLines RepoProps GlobSearch GlobSearchProps.
Import ListNotations.
Open Scope nat_scope.
#[local] Instance bytes_mode : Mode := true.

(** A string as Go has them: any bytes, valid UTF-8 or not. *)
Definition byte_string (s : str) : Prop := Forall (fun b => 0 <= b < 256)%Z s.

Lemma item_not_blunt seps n : item true seps n -> ~ blunt n.
Proof.
  induction 1 as [n Lf P|alts L2 U E I IH F O B|pre post rests Np Nr Nd U G IHG I IH Fp Fq R Sz].
  - intros B. inversion B as [? NL|cs n' Hin]; subst; [exact (P eq_refl NL)|destruct Lf].
  - intros B0. inversion B0 as [? NL|cs n' Hin Bn]; subst; [destruct NL|]. apply in_map_iff in Hin. destruct Hin as [a [Ea Ia]]. injection Ea as ->. exact (IH [n'] n' Ia (or_introl eq_refl) Bn).
  - intros B0. inversion B0 as [? NL|cs n' Hin Bn]; subst; [destruct NL|]. apply in_map_iff in Hin. destruct Hin as [a [Ea Ia]]. injection Ea as ->. apply in_map_iff in Ia. destruct Ia as [r [Er Ir]].
    destruct pre as [|p pre].
    + cbn [app] in Er. destruct r as [|x r]; [exact (Nr Ir)|]. injection Er as -> Er. apply app_eq_nil in Er. destruct Er as [-> ->]. contradiction Np. reflexivity.
    + injection Er as -> Er. exact (IH n' (or_introl eq_refl) Bn).
Qed.
(** Flat sequences of texts, stars, classes that are not negated and choices of such. *)
Theorem C46_bytes p seps ns m : Parse p = POk (NPattern ns) -> Globs p seps m -> ascii seps -> Forall term ns -> Forall (fun n => ~ negative n) ns -> sequence seps ns ->
  (forall a b, ~ between seps ns a b) -> forall s, byte_string s -> decides m (den seps (NPattern ns)) s.
Proof.
  intros P G As F Ng Q NB s Hs. destruct (sequence_compiled seps ns As F Q NB (fun _ => Ng)) as [f [m' [C [_ R]]]]. rewrite (glob_of _ _ _ _ _ _ P G C). apply right_decides, R; [exact Hs|].
  intros _ n ->. inversion Ng; assumption.
Qed.
(** Alternatives nested in sequences nested in alternatives, to any depth. *)
Theorem C46_bytes_nested p seps ns m : Parse p = POk (NPattern ns) -> Globs p seps m -> ascii seps -> Forall (item true seps) ns -> fits true seps ns ->
  forall s, byte_string s -> decides m (den seps (NPattern ns)) s.
Proof. intros P G As F T s Hs. apply (nested_decides p seps ns m P G As F T s Hs). intros _ n ->. inversion F; subst. apply (item_not_blunt seps). assumption. Qed.
(** The same for the pattern as the user writes it. *)
Theorem C46_bytes_written p seps ns m : writes_seq false ns p -> Globs p seps m -> ascii seps -> Forall (item true seps) ns -> fits true seps ns ->
  forall s, byte_string s -> decides m (den seps (NPattern ns)) s.
Proof. intros W. apply C46_bytes_nested. apply parse_written. exists ns. auto. Qed.
(** A whole pattern {p1,p2,..} of such sequences, in any order. *)
Theorem C46_bytes_alternatives p seps alts m : Parse p = POk (NPattern [group alts]) -> Globs p seps m -> ascii seps -> alts <> [] ->
  (forall a n, In a alts -> In n a -> item true seps n) -> Forall (fits true seps) alts -> length alts = 1 \/ unshared alts ->
  forall s, byte_string s -> decides m (den seps (group alts)) s.
Proof. intros P G As Ne I0 F U s Hs. apply (alternatives_decides p seps alts m P G As Ne I0 F U s Hs). intros _ n In0. apply (item_not_blunt seps), (I0 [n] n In0). left. reflexivity. Qed.
(** What is known of arbitrary bytes holds of ASCII too. *)
Lemma searchable_weaker seps n : searchable true seps n -> searchable false seps n.
Proof. induction 1; try discriminate; econstructor; eassumption. Qed.
Lemma follows_weaker seps n n' : follows true seps n n' -> follows false seps n n'.
Proof. intros [A [B C]]. split; [exact A|]. split; [exact B|]. intros U U'. apply searchable_weaker, C; assumption. Qed.
Lemma row_weaker seps ns : row true seps ns -> row false seps ns.
Proof. induction ns as [|n [|n' ns] IH]; [auto|auto|]. intros [A B]. split; [apply follows_weaker, A|apply IH, B]. Qed.
Lemma fits_weaker seps ns : fits true seps ns -> fits false seps ns.
Proof. intros [A B]. split; [apply row_weaker, A|exact B]. Qed.
Theorem C46_bytes_stricter seps n : item true seps n -> item false seps n.
Proof.
  induction 1 as [n Lf P|alts L2 U E I IH F O B|pre post rests Np Nr Nd U G IHG I IH Fp Fq R Sz].
  - apply it_leaf; [exact Lf|discriminate].
  - apply it_group; try assumption. eapply Forall_impl; [|exact F]. apply fits_weaker.
  - apply it_shared; try assumption; [apply fits_weaker, Fp|apply fits_weaker, Fq|apply row_weaker, R].
Qed.
(** A text before a star inside alternatives, followed by a star: right on ASCII (C46_nested), wrong on a byte that is not UTF-8. *)
Definition c46_loose : list Node := [group [[NText (lit "x")]; [NText (lit "a"); NAny]]; NAny].
Theorem C46_bytes_prefix_refuted : Parse (lit "{x,a*}*") = POk (NPattern c46_loose) /\ Forall (item false slash) c46_loose /\ fits false slash c46_loose
  /\ wrong (lit "{x,a*}*") slash [97; 255; 47]%Z.
Proof.
  assert (TX : forall t, forallb (fun c => (0 <=? c) && (c <? 128))%Z t = true -> t <> [] -> item false slash (NText t)).
  { intros t H N. apply text_item; [|exact N]. apply Forall_forall. intros c I. rewrite forallb_forall in H. specialize (H c I). apply andb_true_iff in H. destruct H as [H1 H2]. apply Z.leb_le in H1. apply Z.ltb_lt in H2. lia. }
  assert (ONE : forall n, fits false slash [n]) by (intros n; split; [exact I|]; intros p q [u [mid [v [E _]]]]; destruct mid; discriminate).
  split; [vm_compute; reflexivity|]. split; [|split].
  - constructor; [|constructor; [constructor; [exact I|discriminate]|constructor]]. apply it_group; [cbn; lia|unshared_tac|exists [NText (lit "x")]; split; [left; reflexivity|discriminate]| | |apply (ordered_sized slash _ _ 1); reflexivity|].
    + intros a n [<-|[<-|[]]]; cbn [In]; intros H; repeat destruct H as [<-|H]; try contradiction; first [apply TX; [reflexivity|discriminate]|constructor; [exact I|discriminate]].
    + constructor; [apply ONE|]. constructor; [|constructor]. split; [split; [follows_tac|exact I]|between_tac].
    + intros _ n [H|[H|[]]]; [injection H as <-|discriminate]. intros B. inversion B as [? NL|]; subst. destruct NL.
  - split; [split; [|exact I]|between_tac]. split; [cbn; intros; discriminate|]. split.
    + intros D _. exfalso. apply den_anyof in D. destruct D as [c [[<-|[<-|[]]] D]]; apply den_pattern in D; destruct D as [u [v [E [D _]]]]; cbn in D; subst u; discriminate E.
    + intros _ _. apply se_group; [unshared_tac|]. intros a [<-|[<-|[]]]; [apply (se_sized _ _ _ 1); reflexivity|apply se_text_any; [reflexivity|cbn; lia]].
  - compiled 20. left. split; [vm_compute; reflexivity|]. intros D. apply den_pattern in D. destruct D as [u [v [E [D [v1 [v2 [-> [Dv ->]]]]]]]]. rewrite app_nil_r in E. apply den_anyof in D. destruct D as [c [[<-|[<-|[]]] D]]; apply den_pattern in D.
    + destruct D as [x [y [-> [D ->]]]]. cbn in D. subst x. discriminate E.
    + destruct D as [x [y [-> [D [y1 [y2 [-> [D1 ->]]]]]]]]. cbn in D. subst x. cbn in E. injection E as E. rewrite app_nil_r in E. cbn in D1, Dv.
      destruct y1 as [|b1 [|b2 [|b3 y1]]]; cbn in E; [subst v1|injection E as <- <-|injection E as <- <- <-|injection E; intros; discriminate]; vm_compute in D1, Dv;
        repeat match goal with X : Forall _ (47%Z :: _) |- _ => inversion X as [|? ? X1 _]; apply X1; left; reflexivity | X : Forall _ (_ :: _) |- _ => inversion X; clear X; subst end.
Qed.

(** *** Searching files with any contents (C62) *)
Lemma file_line_bytes content ls : RepoSpec.file_lines content ls -> byte_string content -> Forall byte_string ls.
Proof. induction 1 as [|l Nl _|l rest ls Nl F IH]; intros B; [constructor|constructor; [exact B|constructor]|]. apply Forall_app in B. destruct B as [B1 B2]. constructor; [exact B1|]. apply IH. inversion B2; assumption. Qed.
Lemma readable_bytes ls vs : RepoSpec.readable ls vs -> Forall byte_string ls -> Forall byte_string vs.
Proof. induction 1 as [|l ls L|l ls vs L R IH]; intros B; [constructor|constructor|]. inversion B; subst. constructor; auto. Qed.
Lemma shown_bytes content texts t : RepoSpec.shown content texts -> byte_string content -> In t texts -> byte_string t.
Proof.
  intros [ls [vs [F [R T]]]] B. pose proof (readable_bytes _ _ R (file_line_bytes _ _ F B)) as V. clear F R B ls. induction T as [|v x vs ts Tx T IH]; [intros []|]. inversion V as [|? ? Vv V']; subst.
  intros [<-|I0]; [|exact (IH V' I0)]. destruct Tx as [->|[-> _]]; [apply Forall_app in Vv; tauto|exact Vv].
Qed.
(** Exactly the matching lines of every file, whatever bytes the files contain. *)
Theorem C62_bytes w fs query seps ns o : Parse query = POk (NPattern ns) -> ascii seps -> Forall (item true seps) ns -> fits true seps ns ->
  (forall f content, In f (concat (map snd fs)) -> FsModel.open_read w f = Some content -> byte_string content) ->
  GlobSearch.GlobSearch w fs query seps o -> GlobSearchProps.finds (den seps (NPattern ns)) w fs o.
Proof.
  intros P A F T LB G. apply (GlobSearchProps.search_finds w fs query seps _ _ o P G). intros m Gm f c ts t If O T0 _ It.
  apply (C46_bytes_nested query seps ns m P Gm A F T t). apply (shown_bytes c ts t T0 (LB f c If O) It).
Qed.
Print Assumptions C46_bytes.
Print Assumptions C46_bytes_nested.
Print Assumptions C46_bytes_written.
Print Assumptions C46_bytes_alternatives.
Print Assumptions C46_bytes_stricter.
Print Assumptions C46_bytes_prefix_refuted.
Print Assumptions C62_bytes.

(** *** The hypotheses are met: src/{Makefile,*.{zip,tar*},v{1,2[0-9]}.go} *)
Definition c46b_versions : list (list Node) := [[NText (lit "1")]; [NText (lit "2"); NRange false 48 57]].
Definition c46b_files : list (list Node) := [[NText (lit "Makefile")]; [NAny; NText (lit "."); group c46_archives]; [NText (lit "v"); group c46b_versions; NText (lit ".go")]].
Definition c46b_nested : list Node := [NText (lit "src/"); group c46b_files].
Example C46_case_bytes : Parse (lit "src/{Makefile,*.{zip,tar*},v{1,2[0-9]}.go}") = POk (NPattern c46b_nested) /\ Forall (item true slash) c46b_nested /\ fits true slash c46b_nested
  /\ exists m, Globs (lit "src/{Makefile,*.{zip,tar*},v{1,2[0-9]}.go}") slash m
     /\ accepts m (lit "src/" ++ encode 233 ++ lit ".tar" ++ [255; 128]%Z) /\ accepts m (lit "src/v27.go") /\ rejects m (lit "src/" ++ [195; 47]%Z ++ lit "b.zip") /\ rejects m (lit "src/v2" ++ [233]%Z ++ lit ".go").
Proof.
  assert (TX : forall t, forallb (fun c => (0 <=? c) && (c <? 128))%Z t = true -> t <> [] -> item true slash (NText t)).
  { intros t H N. apply it_leaf; [split; [|exact N]|intros _ []]. apply Forall_forall. intros c I. rewrite forallb_forall in H. specialize (H c I). apply andb_true_iff in H. destruct H as [H1 H2]. apply Z.leb_le in H1. apply Z.ltb_lt in H2. lia. }
  assert (ONE : forall n, fits true slash [n]) by (intros n; split; [exact I|]; intros p q [u [mid [v [E _]]]]; destruct mid; discriminate).
  assert (ST : item true slash NAny) by (apply it_leaf; [exact I|intros _ []]).
  assert (RG : item true slash (NRange false 48 57)) by (apply it_leaf; [cbn; lia|intros _ []]).
  assert (GA : item true slash (group c46_archives)).
  { apply it_group; [cbn; lia|unshared_tac|exists [NText (lit "zip")]; split; [left; reflexivity|discriminate]| | |apply (ordered_sized slash _ _ 3); reflexivity|].
    - intros a n [<-|[<-|[]]]; cbn [In]; intros H; repeat destruct H as [<-|H]; try contradiction; first [exact ST|apply TX; [reflexivity|discriminate]].
    - constructor; [apply ONE|]. constructor; [|constructor]. split; [split; [follows_tac|exact I]|between_tac].
    - intros _ n [H|[H|[]]]; [injection H as <-|discriminate]. intros B. inversion B as [? NL|]; subst. destruct NL. }
  assert (GV : item true slash (group c46b_versions)).
  { apply it_group; [cbn; lia|unshared_tac|exists [NText (lit "1")]; split; [left; reflexivity|discriminate]| | |apply (ordered_sized slash _ _ 1); reflexivity|].
    - intros a n [<-|[<-|[]]]; cbn [In]; intros H; repeat destruct H as [<-|H]; try contradiction; first [exact RG|apply TX; [reflexivity|discriminate]].
    - constructor; [apply ONE|]. constructor; [|constructor]. split; [split; [follows_tac|exact I]|between_tac].
    - intros _ n [H|[H|[]]]; [injection H as <-|discriminate]. intros B. inversion B as [? NL|]; subst. destruct NL. }
  split; [vm_compute; reflexivity|]. split; [|split; [split; [split; [follows_tac|exact I]|between_tac]|]].
  - constructor; [apply TX; [reflexivity|discriminate]|]. constructor; [|constructor].
    apply it_group; [cbn; lia|unshared_tac|exists [NText (lit "Makefile")]; split; [left; reflexivity|discriminate]| | |apply (ordered_sized slash _ _ 8); reflexivity|].
    + intros a n [<-|[<-|[<-|[]]]]; cbn [In]; intros H; repeat destruct H as [<-|H]; try contradiction; first [exact GA|exact GV|exact ST|apply TX; [reflexivity|discriminate]].
    + constructor; [apply ONE|]. constructor; [|constructor; [|constructor]].
      * split; [split; [follows_tac|split; [follows_tac|exact I]]|between_tac].
      * split; [split; [follows_tac|split; [follows_tac|exact I]]|between_tac].
    + intros _ n [H|[H|[H|[]]]]; [injection H as <-|discriminate|discriminate]. intros B. inversion B as [? NL|]; subst. destruct NL.
  - eexists. split; [exists (NPattern c46b_nested), 40; split; vm_compute; reflexivity|repeat split; vm_compute; reflexivity].
Qed.
(** A store whose file has bytes that are not UTF-8: {user,login}:* finds lines 1 and 2. *)
Definition c62b_texts : list str := [lit "user:" ++ encode 233; lit "login:" ++ [255; 254]%Z; lit "user " ++ [128]%Z].
Definition c62b_content : str := lit "user:" ++ encode 233 ++ [10]%Z ++ lit "login:" ++ [255; 254; 10]%Z ++ lit "user " ++ [128]%Z.
Definition c62b_world : FsModel.World := {| FsModel.tree := [(lit "vault", FsModel.Dir [(lit "bank", FsModel.Dir [(lit "abn", FsModel.File c62b_content)])])]; FsModel.cwd := [lit "vault"] |}.
Definition c62b_query : list Node := [group [[NText (lit "user")]; [NText (lit "login")]]; NText (lit ":"); NAny].
Lemma c62b_fits : Forall (item true []) c62b_query /\ fits true [] c62b_query.
Proof.
  assert (TX : forall t, forallb (fun c => (0 <=? c) && (c <? 128))%Z t = true -> t <> [] -> item true [] (NText t)).
  { intros t H N. apply it_leaf; [split; [|exact N]|intros _ []]. apply Forall_forall. intros c I. rewrite forallb_forall in H. specialize (H c I). apply andb_true_iff in H. destruct H as [H1 H2]. apply Z.leb_le in H1. apply Z.ltb_lt in H2. lia. }
  assert (ONE : forall n, fits true [] [n]) by (intros n; split; [exact I|]; intros p q [u [mid [v [E _]]]]; destruct mid; discriminate).
  split.
  - constructor; [|constructor; [apply TX; [reflexivity|discriminate]|constructor; [apply it_leaf; [exact I|intros _ []]|constructor]]].
    apply it_group; [cbn; lia|unshared_tac|exists [NText (lit "user")]; split; [left; reflexivity|discriminate]| | |apply (ordered_sized [] _ _ 4); reflexivity|].
    + intros a n [<-|[<-|[]]] [<-|[]]; apply TX; first [reflexivity|discriminate].
    + constructor; [apply ONE|]. constructor; [apply ONE|constructor].
    + intros _ n [H|[H|[]]]; injection H as <-; intros B; inversion B as [? NL|]; subst; destruct NL.
  - split; [|between_tac]. split; [follows_tac|split; [follows_tac|exact I]].
Qed.
Example C62_case_bytes : Parse (lit "{user,login}:*") = POk (NPattern c62b_query) /\ ascii [] /\ FsModel.open_read c62b_world (lit "bank/abn") = Some c62b_content /\ byte_string c62b_content
  /\ forall o, GlobSearch.GlobSearch c62b_world [(lit "bank", [lit "bank/abn"])] (lit "{user,login}:*") [] o ->
      exists ms, o = GlobSearch.GFound [(lit "bank/abn", ms)] /\ In (1, lit "user:" ++ encode 233) ms /\ In (2, lit "login:" ++ [255; 254]%Z) ms /\ forall n t, In (n, t) ms -> n <= 2.
Proof.
  assert (P : Parse (lit "{user,login}:*") = POk (NPattern c62b_query)) by (vm_compute; reflexivity).
  assert (O : FsModel.open_read c62b_world (lit "bank/abn") = Some c62b_content) by (vm_compute; reflexivity).
  assert (B : byte_string c62b_content) by (vm_compute; repeat constructor; discriminate).
  destruct c62b_fits as [F T]. split; [exact P|]. split; [constructor|]. split; [exact O|]. split; [exact B|]. intros o G.
  destruct (C62_bytes c62b_world [(lit "bank", [lit "bank/abn"])] (lit "{user,login}:*") [] c62b_query o P ltac:(constructor) F T) as [res [-> [PM H]]]; [|exact G|].
  { intros f c [<-|[]] E. rewrite O in E. injection E as <-. exact B. }
  cbn in PM. apply Permutation_sym, Permutation_length_1_inv in PM. destruct res as [|[f ms] [|? ?]]; try discriminate PM. cbn in PM. injection PM as ->. exists ms. split; [reflexivity|]. specialize (H _ ms (or_introl eq_refl)). unfold GlobSearchProps.found_lines in H. match type of H with context [FsModel.open_read ?w ?f] => change (FsModel.open_read w f) with (FsModel.open_read c62b_world (lit "bank/abn")) in H end. rewrite O in H.
  assert (SH : RepoSpec.shown c62b_content c62b_texts).
  { exists c62b_texts, c62b_texts. unfold c62b_texts, c62b_content. split; [|split].
    - rewrite (app_assoc (lit "user:")). apply (RepoSpec.fl_line (lit "user:" ++ encode 233) (lit "login:" ++ [255; 254; 10]%Z ++ lit "user " ++ [128]%Z)); [vm_compute; intuition discriminate|].
      apply (RepoSpec.fl_line (lit "login:" ++ [255; 254]%Z) (lit "user " ++ [128]%Z)); [vm_compute; intuition discriminate|]. apply RepoSpec.fl_last; [discriminate|vm_compute; intuition discriminate].
    - repeat (apply RepoSpec.rd_line; [match goal with |- ?x < _ => let k := eval vm_compute in x in change x with k end; lia|]). constructor.
    - repeat apply Forall2_cons; try apply Forall2_nil; right; (split; [reflexivity|]); intros a E; apply (f_equal (@rev Z)) in E; rewrite (rev_app_distr a) in E; vm_compute in E; discriminate E. }
  destruct H as [ts [T' K]]. rewrite (RepoLines.shown_unique _ _ _ T' SH) in K. destruct K as [[X _]|[_ [_ K]]]; [vm_compute in X; intuition discriminate|].
  assert (DEC : exists m, Globs (lit "{user,login}:*") [] m /\ accepts m (lit "user:" ++ encode 233) /\ accepts m (lit "login:" ++ [255; 254]%Z) /\ rejects m (lit "user " ++ [128]%Z)).
  { eexists. split; [exists (NPattern c62b_query), 40; split; [exact P|vm_compute; reflexivity]|repeat split; vm_compute; reflexivity]. }
  destruct DEC as [m [Gm [A1 [A2 R3]]]]. pose proof (C46_bytes_nested _ _ _ _ P Gm ltac:(constructor) F T) as D.
  assert (YES : forall s, byte_string s -> accepts m s -> den [] (NPattern c62b_query) s) by (intros s Bs A; destruct (D s Bs) as [[_ Y]|[R _]]; [exact Y|unfold accepts, rejects in *; congruence]).
  assert (NO : forall s, byte_string s -> rejects m s -> ~ den [] (NPattern c62b_query) s) by (intros s Bs R; destruct (D s Bs) as [[A _]|[_ Y]]; [unfold accepts, rejects in *; congruence|exact Y]).
  split; [|split].
  - apply K. split; [lia|]. split; [reflexivity|]. apply YES; [vm_compute; repeat constructor; discriminate|exact A1].
  - apply K. split; [lia|]. split; [reflexivity|]. apply YES; [vm_compute; repeat constructor; discriminate|exact A2].
  - intros n t I0. apply K in I0. destruct I0 as [L [N Dn]]. destruct n as [|[|[|[|n]]]]; try lia; [|destruct n; discriminate N]. exfalso. cbn [Nat.sub nth_error c62b_texts] in N. injection N as <-. revert Dn. apply NO; [vm_compute; repeat constructor; discriminate|exact R3].
Qed.
