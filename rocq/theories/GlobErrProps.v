(** * C84: the glob lexer as the program runs it - positions, push-back, queue, recorded error - and the words of every refusal. *)
From Coq Require Import String ZArith Arith List Bool Lia.
From Verif Require Import Utf8 GoStr GlobLex GlobSpec GlobParse GlobGramSpec GlobGram GlobLexer GlobLexerProofs GlobErrSpec GlobErr.
Import ListNotations.

Lemma good_pos p : Forall (fun b => 0 < b)%Z p -> good p.
Proof. intros F. unfold good, bytes. rewrite Forall_forall in *. split; [intros b I; specialize (F b I); cbv beta in F; lia|]. intros I. specialize (F 0%Z I). cbv beta in F. lia. Qed.
(** For any bytes at all (NUL and invalid UTF-8 included) Parse comes back, with a tree or an error: no index out of range (the position never leaves
    the pattern), no nil parent, no endless loop; six steps a byte are enough for each of its loops. *)
Theorem C84_returns : forall p fuel, 6 * length p + 4 <= fuel -> (exists t, Parse_ fuel p = OTree t) \/ exists m, Parse_ fuel p = OError m.
Proof.
  intros p fuel L. rewrite Parse_run by exact L. destruct (run 0 p [] []) as [t|m| |] eqn:E; [left; eauto|right; eauto| |]; exfalso;
    pose proof (parseM_parse (item_msg (Stuck 0 p)) (Lx 0 p) None [] []) as Q; fold (run 0 p [] []) in Q; rewrite E in Q; cbn [erase] in Q; symmetry in Q;
    exact (parse_nocrash (S (length p)) 0 p [] [] ltac:(lia) eq_refl Q).
Qed.
Print Assumptions C84_returns.
(** It is the parser of the other glob properties: same trees, same refusals. *)
Theorem C84_agrees : forall p fuel, 6 * length p + 4 <= fuel -> (forall t, Parse_ fuel p = OTree t <-> Parse p = POk t) /\ ((exists m, Parse_ fuel p = OError m) <-> Parse p = PErr).
Proof.
  intros p fuel L. pose proof (C84_returns p fuel L) as C. rewrite Parse_run in * by exact L. pose proof (parseM_parse (item_msg (Stuck 0 p)) (Lx 0 p) None [] []) as Q. fold (run 0 p [] []) in Q.
  change (parse (Lx 0 p) None [] []) with (Parse p) in Q. split.
  - intros t. split; [intros E; rewrite E in Q; symmetry; exact Q|]. intros E. rewrite E in Q. destruct C as [[t' C]|[m C]]; rewrite C in *; cbn in Q; [injection Q as ->; reflexivity|discriminate].
  - split; [intros [m E]; rewrite E in Q; symmetry; exact Q|]. intros E. rewrite E in Q. destruct C as [[t' C]|[m C]]; [rewrite C in Q; discriminate|eauto].
Qed.
Print Assumptions C84_agrees.
(** The texts an error can have, for any bytes: the other four in the source cannot come up. *)
Theorem C84_texts : forall p fuel m, 6 * length p + 4 <= fuel -> Parse_ fuel p = OError m ->
  m = t_rune \/ m = t_end \/ m = t_close \/ m = t_range \/ exists hi lo, (hi < lo)%Z /\ m = t_order hi lo.
Proof. intros p fuel m L E. rewrite Parse_run in E by exact L. exact (parseM_known _ (S (length p)) (item_msg_known _) 0 p [] [] m ltac:(lia) E). Qed.
Print Assumptions C84_texts.
(** Which patterns are refused, and why: exactly those of GlobErrSpec.refused, with the text given there. *)
Theorem C84_messages : forall p fuel m, 6 * length p + 4 <= fuel -> Forall (fun b => 0 < b)%Z p -> (Parse_ fuel p = OError m <-> refused p m).
Proof. intros p fuel m L F. rewrite Parse_run by exact L. apply good_pos in F. split; [apply run_refused, F|apply refused_run, F]. Qed.
Print Assumptions C84_messages.
(** So every pattern without NUL is either read by the grammar of C44 or refused for one reason, never both. *)
Theorem C84_read_or_refused : forall p, Forall (fun b => 0 < b)%Z p ->
  ((exists t, reads_pattern t p) \/ exists m, refused p m) /\ (forall t m, reads_pattern t p -> ~ refused p m) /\ (forall m m', refused p m -> refused p m' -> m = m').
Proof.
  intros p F. pose proof (C84_agrees p (6 * length p + 4) (le_n _)) as [A1 A2]. assert (M := fun m => C84_messages p (6 * length p + 4) m (le_n _) F). assert (G := good_pos _ F). split; [|split].
  - destruct (C84_returns p (6 * length p + 4) (le_n _)) as [[t E]|[m E]]; [left; exists t; apply parse_reads; [exact G|apply A1, E]|right; exists m; apply M, E].
  - intros t m R Q. apply M in Q. apply reads_parse, A1 in R. congruence.
  - intros m m' Q Q'. apply M in Q. apply M in Q'. congruence.
Qed.
Print Assumptions C84_read_or_refused.
(** The lexer hands out the tokens of Lex one by one, and once it has returned an error it returns that same error for ever. *)
Theorem C84_stream : forall p fuel, 6 * length p + 4 <= fuel -> exists m,
  (forall k, k <= length (Lex p) -> nexts fuel k (NewLexer p) = Some (firstn k (map (tokm m) (Lex p))))
  /\ (In TError (Lex p) -> forall k, length (Lex p) <= k -> nexts fuel k (NewLexer p) = Some (map (tokm m) (Lex p) ++ repeat (T KError m) (k - length (Lex p)))).
Proof.
  intros p fuel L. exists (item_msg (Stuck 0 p)). split.
  - intros k. destruct (nexts_at fuel ltac:(lia) k (NewLexer p) 0 p [] (item_msg (Stuck 0 p)) (at_new p) ltac:(lia) ltac:(auto) ltac:(reflexivity)) as [Q _]. exact Q.
  - intros I k. destruct (nexts_at fuel ltac:(lia) k (NewLexer p) 0 p [] (item_msg (Stuck 0 p)) (at_new p) ltac:(lia) ltac:(auto) ltac:(reflexivity)) as [_ Q]. exact (Q I).
Qed.
Print Assumptions C84_stream.
(** Refused patterns of each kind, run: an order, a class cut short, no bracket, an empty one, bytes that are no character, and one after a bracket that could have closed. *)
Example C84_case : (forall fuel, 200 <= fuel -> Parse_ fuel (msg "a{b,*[!z-a]") = OError (msg "hi character 'a' should be greater than lo 'z'"))
  /\ Parse_ 200 (msg "a[bc\") = OError (msg "unexpected end of input") /\ Parse_ 200 (msg "[a-bc]") = OError (msg "expected close range character")
  /\ Parse_ 200 (msg "x[!]]") = OError (msg "could not parse range") /\ Parse_ 200 (msg "{x*" ++ [255%Z]) = OError (msg "could not read rune")
  /\ Parse_ 200 (msg "[]" ++ [255%Z]) = OError (msg "could not read rune") /\ Parse_ 200 (msg "[a" ++ [255%Z]) = OError (msg "unexpected end of input")
  /\ refused (msg "a{b,*[!z-a]") (t_order 97 122).
Proof.
  split; [|repeat split; try (vm_compute; reflexivity)].
  - intros fuel L. rewrite (Parse_run fuel) by (cbn; lia). vm_compute. reflexivity.
  - apply (C84_messages _ 200); [cbn; lia|repeat constructor|vm_compute; reflexivity].
Qed.
