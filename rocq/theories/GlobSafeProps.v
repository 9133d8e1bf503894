(** * C68: matching never crashes and never hangs.

    Match of the model is None where the Go code panics (a slice out of range) or loops for ever. *)
From Coq Require Import String.
From Coq Require Import ZArith Arith List Bool Lia.
From Verif Require Import Utf8 GoStr GlobLex GlobMatch GlobCompile GlobSpec GlobSem GlobFactor GlobParse GlobGramSpec GlobGram GlobProps1 GlobProps3 GlobProps5 GlobSafeSpec GlobSafe.
Import ListNotations.
Open Scope nat_scope.

(** If every group of the pattern is settled (GlobSafeSpec.v) and the separators are ASCII, Match answers for every string of bytes. *)
Theorem C68_never_panics : forall p seps ns m, Parse p = POk (NPattern ns) -> Globs p seps m -> ascii seps -> Forall safe ns ->
  forall s, accepts m s \/ rejects m s.
Proof.
  intros p seps ns m P [t [fuel [P' C]]] A F s. rewrite P in P'. injection P' as <-. destruct (safe_total fuel ns seps m A F C s) as [[|] E]; [left|right]; exact E.
Qed.
Print Assumptions C68_never_panics.
(** A pattern without { never panics: any separators, any string of bytes. *)
Lemma utf8_some cs : cs <> [] -> utf8 cs <> [].
Proof. destruct cs as [|c cs]; [contradiction|]. intros _ E. unfold utf8 in E. cbn [map concat] in E. apply app_eq_nil in E. destruct E as [E _]. exact (encode_nonempty c E). Qed.
Lemma terms_flat a ns s : terms_of a ns s -> ~ In cTermsOpen s -> Forall flat ns.
Proof.
  induction 1 as [a|a n ns s t T _ _ IH]; intros N; [constructor|]. rewrite in_app_iff in N. constructor; [|apply IH; tauto]. destruct T as [a cs s Ne _|a|a|a|a not n s Cl|a ns' s _]; try exact I.
  - exact (utf8_some cs Ne).
  - destruct Cl; exact I.
  - destruct N. left. left. reflexivity.
Qed.
Theorem C68_no_braces : forall p seps m, Forall (fun b => 0 < b)%Z p -> ~ In cTermsOpen p -> Globs p seps m -> forall s, accepts m s \/ rejects m s.
Proof.
  intros p seps m Pos N [t [fuel [P C]]] s. apply (C44_exact p t Pos) in P. destruct P as [ns [q [-> [O E]]]].
  assert (Nq : ~ In cTermsOpen q) by (intros I; apply N; destruct E as [->| ->]; [exact I|apply in_or_app; auto]).
  assert (F : Forall flat ns). { destruct O as [a ns s' T|a ns alts s' t' T _]; [exact (terms_flat a ns s' T Nq)|]. destruct Nq. apply in_or_app. right. left. reflexivity. }
  destruct (flat_total fuel ns seps m F C s) as [[|] Q]; [left|right]; exact Q.
Qed.
Print Assumptions C68_no_braces.
(** So a pattern that can be compiled has one of three outcomes on a string; the third only for a pattern with a {. *)
Definition crashes (p : str) (seps : list Z) (s : str) : Prop := exists m, Globs p seps m /\ panics m s.
Theorem C68_crash_needs_brace : forall p seps s, Forall (fun b => 0 < b)%Z p -> crashes p seps s -> In cTermsOpen p.
Proof.
  intros p seps s Pos [m [G Pa]]. destruct (in_dec Z.eq_dec cTermsOpen p) as [I|I]; [exact I|]. exfalso. unfold panics in Pa. destruct (C68_no_braces p seps m Pos I G s) as [A|A]; unfold accepts, rejects in A; congruence.
Qed.
Print Assumptions C68_crash_needs_brace.
(** Without those conditions Match panics. *)
Ltac crash := match goal with |- crashes ?p ?seps ?s => let t := eval vm_compute in (Parse p) in match t with POk ?n => let m := eval vm_compute in (compile_f 20 n seps) in match m with Some ?mm => exists mm; split; [exists n, 20; split; vm_compute; reflexivity|vm_compute; reflexivity] end end end.
Theorem C68_refuted :
  (* an alternative that is the beginning of those before it *) crashes (lit "{a*,a}") [] (lit "a")
  /\ (* an empty alternative after one with a star *) crashes (lit "x{a*,}") [] (lit "x")
  /\ crashes (lit "src/{**/,}*.go") slash (lit "src/")
  /\ (* only the empty alternative *) crashes (lit "a{}") [] (lit "a")
  /\ (* a group and a separator that is not ASCII *) crashes (lit "{x,*b}**") [233%Z] (lit "aa" ++ encode 233 ++ lit "ab").
Proof. repeat match goal with |- _ /\ _ => split end; crash. Qed.
Print Assumptions C68_refuted.
(** Settled groups: the alternatives differ in the first and in the last term, or the empty one comes first. *)
Theorem C68_settled_different : forall alts a x b y c z d w, In (a :: x) alts -> In (b :: y) alts -> a <> b -> In (z ++ [c]) alts -> In (w ++ [d]) alts -> c <> d -> ~ In [] alts -> settled alts.
Proof.
  intros alts a x b y c z d w Ia Ib Nab Ic Id Ncd N0. split; [exists (a :: x); split; [exact Ia|discriminate]|]. intros before e after E [u [v [-> F]]] _. rewrite Forall_forall in F. exfalso. apply N0.
  assert (u = []) as ->. { destruct u as [|k u]; [reflexivity|]. destruct (F _ Ia) as [w1 E1], (F _ Ib) as [w2 E2]. injection E1 as E1 _. injection E2 as E2 _. congruence. }
  assert (v = []) as ->. { destruct (rev v) as [|k r] eqn:R; [apply (f_equal (@rev Node)) in R; rewrite rev_involutive in R; exact R|]. apply (f_equal (@rev Node)) in R. rewrite rev_involutive in R. cbn [rev] in R. subst v.
    destruct (F _ Ic) as [w1 E1], (F _ Id) as [w2 E2]. cbn [app] in E1, E2. rewrite app_assoc in E1, E2. apply app_inj_tail in E1, E2. destruct E1 as [_ E1], E2 as [_ E2]. congruence. }
  rewrite E. apply in_or_app. right. left. reflexivity.
Qed.
Print Assumptions C68_settled_different.
Theorem C68_settled_empty_first : forall alts d, In d alts -> d <> [] -> settled ([] :: alts).
Proof.
  intros alts d I N. split; [exists d; split; [right; exact I|exact N]|]. intros before e after E [u [v [-> F]]] Nb. left. rewrite Forall_forall in F. destruct (F [] ltac:(left; reflexivity)) as [w W]. symmetry in W. apply app_eq_nil in W. destruct W as [-> W]. apply app_eq_nil in W. destruct W as [_ ->].
  destruct before as [|k before]; [reflexivity|]. injection E as <- _. destruct Nb. left. reflexivity.
Qed.
Print Assumptions C68_settled_empty_first.

(** Non-vacuity. *)
Definition c68_terms : list Node :=
  [NText (lit "src/"); NAnyOf (map NPattern [[]; [NText (lit "lib/"); NAny; NText (lit "/")]]); NList true (lit "_"); NAnyOf (map NPattern [[NAnyOf (map NPattern [[NText (lit "ab")]; [NSuper; NSingle]]); NAny]; [NText (lit ".go")]])].
Example C68_case : Parse (lit "src/{,lib/*/}[!_]{{ab,**?}*,.go}") = POk (NPattern c68_terms) /\ Forall safe c68_terms /\ exists m, Globs (lit "src/{,lib/*/}[!_]{{ab,**?}*,.go}") slash m.
Proof.
  split; [vm_compute; reflexivity|]. split.
  - assert (G1 : settled [[]; [NText (lit "lib/"); NAny; NText (lit "/")]]) by (apply (C68_settled_empty_first _ [NText (lit "lib/"); NAny; NText (lit "/")]); [left; reflexivity|discriminate]).
    assert (G2 : settled [[NText (lit "ab")]; [NSuper; NSingle]]).
    { apply (C68_settled_different _ (NText (lit "ab")) [] NSuper [NSingle] (NText (lit "ab")) [] NSingle [NSuper]); try (cbn; tauto); try discriminate. intros [E|[E|[]]]; discriminate. }
    assert (G3 : settled [[NAnyOf (map NPattern [[NText (lit "ab")]; [NSuper; NSingle]]); NAny]; [NText (lit ".go")]]).
    { set (g := NAnyOf _). apply (C68_settled_different _ g [NAny] (NText (lit ".go")) [] NAny [g] (NText (lit ".go")) []); try (cbn; tauto); try discriminate. intros [E|[E|[]]]; discriminate. }
    unfold c68_terms. repeat match goal with
    | |- Forall _ [] => constructor
    | |- Forall _ (_ :: _) => constructor
    | |- safe (NText _) => apply safe_text; discriminate
    | |- safe (NAnyOf _) => apply safe_group; [|assumption]
    | |- safe _ => constructor
    end.
  - eexists. exists (NPattern c68_terms), 30. split; vm_compute; reflexivity.
Qed.
Example C68_case_no_brace : ~ In cTermsOpen (lit "src/**/[!_]*_?.go") /\ exists m, Globs (lit "src/**/[!_]*_?.go") [233%Z] m.
Proof. split; [vm_compute; intuition discriminate|]. eexists. exists (NPattern [NText (lit "src/"); NSuper; NText (lit "/"); NList true (lit "_"); NAny; NText (lit "_"); NSingle; NText (lit ".go")]), 30. split; vm_compute; reflexivity. Qed.
