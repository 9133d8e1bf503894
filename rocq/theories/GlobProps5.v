(** * C44: exactly which patterns are accepted, and as what. *)
From Coq Require Import String.
From Coq Require Import ZArith Arith List Bool Lia.
From Verif Require Import Utf8 GoStr GlobLex GlobMatch GlobSpec GlobParse GlobGramSpec GlobGram GlobProps1.
Import ListNotations.
Open Scope nat_scope.

Lemma good_pos p : Forall (fun b => 0 < b)%Z p -> good p.
Proof.
  intros F. split.
  - eapply Forall_impl; [|exact F]. cbn. intros; lia.
  - intros I. rewrite Forall_forall in F. specialize (F _ I). lia.
Qed.
(** A pattern without NUL bytes is accepted exactly when the grammar of GlobGramSpec.v derives it, with the tree the grammar gives it. *)
Theorem C44_exact : forall p t, Forall (fun b => 0 < b)%Z p -> (Parse p = POk t <-> reads_pattern t p).
Proof. intros p t F. split; [apply parse_reads, good_pos, F|apply reads_parse]. Qed.
Print Assumptions C44_exact.
(** Every other pattern is an error (never a panic); in particular nothing but valid UTF-8 is accepted. *)
Theorem C44_rejects : forall p, Forall (fun b => 0 < b)%Z p -> (forall t, ~ reads_pattern t p) -> Parse p = PErr.
Proof. intros p F H. destruct (C43_parse_total p) as [[t P]|P]; [|exact P]. exfalso. apply (H t), C44_exact; assumption. Qed.
Print Assumptions C44_rejects.
(** The grammar gives a pattern one tree, and contains the documented one. *)
Theorem C44_one_tree : forall p t t', reads_pattern t p -> reads_pattern t' p -> t = t'.
Proof. intros p t t' H H'. apply reads_parse in H. apply reads_parse in H'. congruence. Qed.
Print Assumptions C44_one_tree.
Theorem C44_documented_included : forall p t, Forall (fun b => 0 < b)%Z p -> writes_pattern t p -> reads_pattern t p.
Proof. intros p t F W. apply C44_exact; [exact F|]. apply C44_parse_written, W. Qed.
Print Assumptions C44_documented_included.
(** A backslash last, after complete terms, changes nothing. *)
Theorem C44_last_backslash : forall p ns, Forall (fun b => 0 < b)%Z p -> open_terms false ns p -> Parse (p ++ [cEscape]) = Parse p /\ Parse p = POk (NPattern ns).
Proof. intros p ns F O. rewrite (reads_parse (p ++ [cEscape]) (NPattern ns)), (reads_parse p (NPattern ns)); [auto|exists ns, p; auto|exists ns, p; auto]. Qed.
Print Assumptions C44_last_backslash.
(** A NUL ends the pattern where a term could start, whatever follows, and is skipped after a text. *)
Theorem C44_nul : (forall rest, Parse (0%Z :: rest) = POk (NPattern [])) /\ (forall rest, Parse (cAny :: 0%Z :: rest) = POk (NPattern [NAny]))
  /\ Parse (lit "a" ++ 0%Z :: lit "b*") = POk (NPattern [NText (lit "a"); NText (lit "b"); NAny]).
Proof. split; [reflexivity|split; [reflexivity|vm_compute; reflexivity]]. Qed.
Print Assumptions C44_nul.

(** Non-vacuity: a pattern with open alternatives and a hyphenated class is derived; one is not. *)
Example C44_reads : reads_pattern (NPattern [NText (lit "a"); NAnyOf [NPattern [NList false (lit "ax-z")]; NPattern [NSuper; NText (lit "}")]]]) (lit "a{[ax-z],**\}\").
Proof.
  apply parse_reads.
  - apply good_pos. vm_compute. repeat constructor.
  - vm_compute. reflexivity.
Qed.
Example C44_not_read : forall t, ~ reads_pattern t (lit "[a-cx]").
Proof. intros t H. apply reads_parse in H. vm_compute in H. discriminate. Qed.
Example C44_invalid : forall t, ~ reads_pattern t [97%Z; 255%Z].
Proof. intros t H. apply reads_parse in H. vm_compute in H. discriminate. Qed.
