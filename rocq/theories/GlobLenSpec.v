(** * What Len of a compiled matcher should be (C65): the number of characters of every string it stands for, if that is one number. *)
From Coq Require Import String.
From Coq Require Import ZArith Arith List Bool.
From Verif Require Import Utf8 GoStr GlobLex GlobMatch GlobIndexSpec.
Import ListNotations.
Open Scope nat_scope.

(** Len, if it is known (not -1), is the length in characters of every string in the matcher's language. *)
Definition len_right (m : Matcher) : Prop := Len m <> (-1)%Z -> forall b, Forall valid_rune b -> lang_of m b -> Z.of_nat (length b) = Len m.
(** No alternatives, anywhere in m, of which some have a known length and others have not. *)
Fixpoint even (m : Matcher) : Prop :=
  let fix all (ms : list Matcher) : Prop := match ms with [] => True | m :: t => even m /\ all t end in
  match m with
  | MAnyOf ms => all ms /\ ((forall x, In x ms -> Len x <> (-1)%Z) \/ (forall x, In x ms -> Len x = (-1)%Z))
  | MEveryOf ms | MRow ms _ => all ms
  | MBTree v l r _ _ _ => even v /\ match l with Some x => even x | None => True end /\ match r with Some x => even x | None => True end
  | _ => True
  end.
(** The parts of a matcher, and everything inside it. *)
Definition part (m x : Matcher) : Prop :=
  match m with MAnyOf ms | MEveryOf ms | MRow ms _ => In x ms | MBTree v l r _ _ _ => x = v \/ l = Some x \/ r = Some x | _ => False end.
Inductive inside : Matcher -> Matcher -> Prop :=
  | inside_self m : inside m m
  | inside_part x y m : part m y -> inside x y -> inside x m.
(** The length of a side of a BTree. *)
Definition olen (o : option Matcher) : Z := match o with Some x => Len x | None => 0%Z end.
