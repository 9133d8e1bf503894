(** * C47: factoring alternatives keeps their meaning; compiling always gives exactly one matcher. *)
From Coq Require Import String.
From Coq Require Import ZArith Arith List Bool Lia.
From Verif Require Import Utf8 GoStr GlobLex GlobMatch GlobCompile GlobSpec GlobFactor.
Import ListNotations.
Open Scope nat_scope.

(** Whatever the compiler's rewriting of {..} returns stands for the same strings, whatever the separators. *)
Theorem C47_factoring_meaning ch n' : minimizeTreeAnyOf ch = Some n' -> forall seps s, den seps n' s <-> den seps (NAnyOf ch) s.
Proof. intros H seps s. apply factored_den, H. Qed.
(** {abc*x,abcy?x,abcx} is rewritten to abc{*,y?,}x; without a common end nothing is rewritten. *)
Example C47_case : exists n', minimizeTreeAnyOf [NPattern [NText (lit "abc"); NAny; NText (lit "x")]; NPattern [NText (lit "abc"); NText (lit "y"); NSingle; NText (lit "x")]; NPattern [NText (lit "abc"); NText (lit "x")]] = Some n'
  /\ n' = NPattern [NPattern [NText (lit "abc")]; NAnyOf [NPattern [NAny]; NPattern [NText (lit "y"); NSingle]; NNothing]; NPattern [NText (lit "x")]]
  /\ minimizeTreeAnyOf [NPattern [NText (lit "abc"); NAny]; NPattern [NText (lit "ab"); NAny; NText (lit "x")]] = None.
Proof. eexists. split; [vm_compute; reflexivity|]. split; vm_compute; reflexivity. Qed.

(** Compiling a syntax tree always ends, with a matcher: rewriting alternatives over and over cannot go on for ever. *)
Theorem C47_compile_total t seps : exists fuel m, compile_f fuel t seps = Some m.
Proof. exists (weight t). apply compile_some. lia. Qed.
(** For every pattern that parses, Compile gives one glob, which depends only on the pattern and the separators. *)
Theorem C47_glob_unique pattern seps t : Parse pattern = POk t -> exists m, Globs pattern seps m /\ forall m', Globs pattern seps m' -> m' = m.
Proof.
  intros P. destruct (compile_some (weight t) t seps (le_n _)) as [m C]. exists m. split; [exists t, (weight t); auto|].
  intros m' [t' [f [P' C']]]. rewrite P in P'. injection P' as <-.
  destruct (Nat.le_ge_cases (weight t) f) as [L|L]; [pose proof (compile_mono _ _ _ _ _ L C)|pose proof (compile_mono _ _ _ _ _ L C')]; congruence.
Qed.
Print Assumptions C47_factoring_meaning.
Print Assumptions C47_compile_total.
Print Assumptions C47_glob_unique.
