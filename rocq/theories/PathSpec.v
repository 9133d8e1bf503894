(** * Specification of lexical path cleaning and of where a joined path leads, independent of the model's functions. *)
From Coq Require Import String.
From Coq Require Import ZArith List Relations.
From Verif Require Import GoStr.
Import ListNotations.

(** The elements of a path: what is between its slashes. *)
Fixpoint spelled (es : list str) : str := match es with [] => [] | [e] => e | e :: r => e ++ lit "/" ++ spelled r end.
Definition elements (p : str) (es : list str) : Prop := es <> [] /\ Forall (fun e => ~ In 47%Z e) es /\ p = spelled es.
Definition absolute (p : str) : Prop := exists r, p = lit "/" ++ r.
(** Elements that say "here", the one that says "up", and the others. *)
Definition here (e : str) : Prop := e = [] \/ e = lit ".".
Definition up : str := lit "..".
Definition named (e : str) : Prop := ~ here e /\ e <> up.

(** The three lexical simplifications. *)
Inductive simpler (abs : Prop) : list str -> list str -> Prop :=
  | si_here a e b : here e -> simpler abs (a ++ e :: b) (a ++ b)
  | si_up a n b : named n -> simpler abs (a ++ n :: up :: b) (a ++ b)
  | si_top b : abs -> simpler abs (up :: b) b.
Definition simplest (abs : Prop) (es : list str) : Prop := forall es', ~ simpler abs es es'.
Definition simplifies (abs : Prop) (es es' : list str) : Prop := clos_refl_trans _ (simpler abs) es es' /\ simplest abs es'.

(** Walking from the directory d (names from "/") along the elements, lexically. *)
Inductive walk : list str -> list str -> list str -> Prop :=
  | wk_end d : walk d [] d
  | wk_here d e es t : here e -> walk d es t -> walk d (e :: es) t
  | wk_up d n es t : walk d es t -> walk (d ++ [n]) (up :: es) t
  | wk_top es t : walk [] es t -> walk [] (up :: es) t
  | wk_name d n es t : named n -> walk (d ++ [n]) es t -> walk d (n :: es) t.
(** A walk that never leaves the directory it starts in (k: how deep below it we are). *)
Inductive stays : nat -> list str -> Prop :=
  | st_end k : stays k []
  | st_here k e es : here e -> stays k es -> stays k (e :: es)
  | st_up k es : stays k es -> stays (S k) (up :: es)
  | st_name k n es : named n -> stays (S k) es -> stays k (n :: es).
