(** * C85: a compiled glob is linear in its pattern, however its groups are nested, factored, glued and split. *)
From Coq Require Import String ZArith Arith List Bool Lia.
From Verif Require Import Utf8 GoStr GlobLex GlobMatch GlobCompile GlobSpec GlobParse GlobGram GlobSizeSpec GlobSize.
Import ListNotations.
Local Open Scope nat_scope.

(** All the matcher objects glob.Compile makes, with the texts, separators and class characters they hold: 7 a byte of the pattern (and 4 for each separator). *)
Theorem C85_size : forall p seps m, bytes p -> Globs p seps m -> size m <= (7 + 4 * length seps) * length p + 1.
Proof. exact globs_size. Qed.
Print Assumptions C85_size.
(** So nested calls of Match are no deeper than that. *)
Theorem C85_depth : forall p seps m, bytes p -> Globs p seps m -> depth m <= (7 + 4 * length seps) * length p + 1.
Proof. intros p seps m B H. pose proof (depth_size m). pose proof (globs_size p seps m B H). lia. Qed.
Print Assumptions C85_depth.

Definition gl (s : string) : str := map (fun c => Z.of_nat (Ascii.nat_of_ascii c)) (list_ascii_of_string s).
Fixpoint words (n : nat) : list str := match n with O => [[]] | S k => flat_map (fun w => [gl "ax" ++ w; gl "ay" ++ w; gl "b" ++ w]) (words k) end.
Definition six : str := concat (repeat (gl "{ax,ay,b}") 6).
(** Six groups of three alternatives: 729 strings, all accepted by a matcher of size 59, nested 7 deep (the bound is 595). *)
Example C85_case : bytes six /\ exists m, Globs six [47%Z] m /\ size m = 59 /\ depth m = 7 /\ length (words 6) = 729 /\ forall w, In w (words 6) -> accepts m w.
Proof.
  split. { apply Forall_forall. assert (H : forallb (fun b => (0 <=? b) && (b <? 256))%Z six = true) by (vm_compute; reflexivity). intros b I. rewrite forallb_forall in H. specialize (H b I). cbv beta. lia. }
  assert (H : match Parse six with POk t => match compile_f 200 t [47%Z] with
                | Some m => (size m =? 59) && (depth m =? 7) && (length (words 6) =? 729) && forallb (fun w => match Match m w with Some true => true | _ => false end) (words 6) | None => false end | _ => false end = true) by (vm_compute; reflexivity).
  destruct (Parse six) as [t| |] eqn:E; try discriminate. destruct (compile_f 200 t [47%Z]) as [m|] eqn:C; [|discriminate]. apply andb_true_iff in H. destruct H as [H W]. apply andb_true_iff in H. destruct H as [H N]. apply andb_true_iff in H. destruct H as [A B].
  apply Nat.eqb_eq in A, B, N. exists m. split; [exists t, 200; auto|]. split; [exact A|]. split; [exact B|]. split; [exact N|]. intros w I. rewrite forallb_forall in W. specialize (W w I). cbv beta in W. unfold accepts. destruct (Match m w) as [[]|]; [reflexivity|discriminate|discriminate].
Qed.
