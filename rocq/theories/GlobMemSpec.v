(** * Vocabulary for C69: matches running at the same time. *)
From Coq Require Import String.
From Coq Require Import ZArith Arith List Bool.
From Verif Require Import GoStr GlobMatch GlobMem.
Import ListNotations.

(** What is running: for each glob and text a call of Match, none of which has begun, on a memory nobody has used. *)
Definition calls (jobs : list (Matcher * str)) : Store * list (prog bool) := (fresh_store, map (fun j => matching (fst j) (snd j)) jobs).
(** The next thing p does is to use the array b ... *)
Definition touches {A} (p : prog A) (b : bid) : Prop :=
  match p with Cap x _ => x = b | Read x _ _ => x = b | Write x _ _ _ => x = b | Put _ x _ => x = b | _ => False end.
(** ... to change it or give it away. *)
Definition changes {A} (p : prog A) (b : bid) : Prop := match p with Write x _ _ _ => x = b | Put _ x _ => x = b | _ => False end.
(** Nothing left to do. *)
Definition finished {A} (p : prog A) : Prop := match p with Ret _ | Panic => True | _ => False end.
(** b lies in a pool. *)
Definition pooled (m : Store) (b : bid) : Prop := exists pool, In (pool, b) (pools m).
