(** * Pictures of symbols and how far they are apart.  Independent of the encoder. *)
From Coq Require Import Arith List Bool.
From Verif Require Import QrSpec.
Import ListNotations.

(** The number of modules (row, column) of an n by n symbol that are black in one picture and white in the other. *)
Definition changed (n : nat) (f g : nat -> nat -> bool) : nat :=
  length (filter (fun m => xorb (f (fst m) (snd m)) (g (fst m) (snd m))) (list_prod (seq 0 n) (seq 0 n))).
(** The two copies of the format information (level and mask) are the same in both pictures. *)
Definition same_format (n : nat) (f g : nat -> nat -> bool) : Prop :=
  forall i, i < 15 -> f (fst (format_cell1 i)) (snd (format_cell1 i)) = g (fst (format_cell1 i)) (snd (format_cell1 i))
                      /\ f (fst (format_cell2 n i)) (snd (format_cell2 n i)) = g (fst (format_cell2 n i)) (snd (format_cell2 n i)).
