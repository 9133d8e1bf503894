(** * Choice sequences of an ideal generator, independent of the code.

    A password is built by inserting characters one after the other; a choice is the character
    (from that step's set) and the position (0..current length) where it goes. *)
From Coq Require Import ZArith List ListDec Bool.
Import ListNotations.
Open Scope Z_scope.

Definition insert_at (i : nat) (x : Z) (s : list Z) : list Z := firstn i s ++ x :: skipn i s.

(** Choice sequences are kept last-choice-first. *)
Fixpoint build (v : list (Z * nat)) : list Z :=
  match v with
  | [] => []
  | (ch, i) :: v' => insert_at i ch (build v')
  end.

(** All choice sequences for the given steps (the set of the last step first). *)
Fixpoint choices (sets : list (list Z)) : list (list (Z * nat)) :=
  match sets with
  | [] => [[]]
  | set :: sets' =>
      flat_map (fun v => flat_map (fun ch => map (fun i => (ch, i) :: v) (seq 0 (S (length sets')))) set)
               (choices sets')
  end.

Definition list_eqb (a b : list Z) : bool := if list_eq_dec Z.eq_dec a b then true else false.
(** How many choice sequences give password [w]; and how many of those never choose a character twice. *)
Definition ways (sets : list (list Z)) (w : list Z) : nat :=
  length (filter (fun v => list_eqb (build v) w) (choices sets)).
Definition nodupb (l : list Z) : bool := if ListDec.NoDup_dec Z.eq_dec l then true else false.
Definition ways_norepeat (sets : list (list Z)) (w : list Z) : nat :=
  length (filter (fun v => nodupb (map fst v) && list_eqb (build v) w) (choices sets)).

Definition memb (x : Z) (s : list Z) : bool := existsb (Z.eqb x) s.
Definition count_in (s w : list Z) : nat := length (filter (fun b => memb b s) w).

(** The steps of a request: c letters, then d digits, then s symbols (last step first). *)
Definition steps (L D S : list Z) (c d s : nat) : list (list Z) :=
  repeat S s ++ repeat D d ++ repeat L c.
(** A password of the requested composition. *)
Definition composed (L D S : list Z) (c d s : nat) (w : list Z) : Prop :=
  length w = (c + d + s)%nat /\ count_in L w = c /\ count_in D w = d /\ count_in S w = s.

(** All strings of k bytes. *)
Fixpoint all_bytes (k : nat) : list (list Z) :=
  match k with
  | O => [[]]
  | S k' => flat_map (fun x => map (fun l => x :: l) (all_bytes k')) (map Z.of_nat (seq 0 256))
  end.
