(** * C87: rewriting a pattern.

    Which patterns the laws speak of, and how a pattern with alternatives is spelled out.  Only syntax trees and pattern texts are mentioned. *)
From Coq Require Import ZArith List Bool.
From Verif Require Import Utf8 GoStr GlobLex GlobMatch GlobCompile GlobSpec GlobFragment GlobNestSpec.
Import ListNotations.

(** The pattern p has the tree ns and is one of the nested patterns of C46, given the separators. *)
Definition regular (seps : list Z) (p : str) (ns : list Node) : Prop :=
  Parse p = POk (NPattern ns) /\ Forall (item false seps) ns /\ fits false seps ns.
(** Two globs give the same answer, and neither crashes. *)
Definition same_answer (m m' : Matcher) (s : str) : Prop := (accepts m s /\ accepts m' s) \/ (rejects m s /\ rejects m' s).

(** An alternative and how it is written (inside the braces). *)
Definition alternative : Type := list Node * str.
Definition written (alts : list alternative) : Prop := Forall (fun a => writes_seq true (fst a) (snd a)) alts.
(** a1,a2,..,an *)
Fixpoint commas (alts : list alternative) : str :=
  match alts with
  | [] => []
  | [a] => snd a
  | a :: rest => snd a ++ [cComma] ++ commas rest
  end.
(** P{a1,..,an}Q *)
Definition braced (P : str) (alts : list alternative) (Q : str) : str := P ++ [cTermsOpen] ++ commas alts ++ [cTermsClose] ++ Q.
(** The terms of a pattern in which texts that have become neighbours are one text. *)
Fixpoint join (ns : list Node) : list Node :=
  match ns with
  | [] => []
  | NText a :: t => match join t with
                    | NText b :: t' => NText (a ++ b) :: t'
                    | t' => NText a :: t'
                    end
  | n :: t => n :: join t
  end.
(** Written one after the other no two stars become one: the last term of the first and the first of the second are not * and a star. *)
Definition no_clash (ns ns' : list Node) : Prop := forall l r t, ns = l ++ [NAny] -> ns' = r :: t -> r <> NAny /\ r <> NSuper.
(** Every * is made **. *)
Fixpoint super (n : Node) : Node :=
  match n with
  | NAny => NSuper
  | NPattern ns => NPattern (map super ns)
  | NAnyOf ns => NAnyOf (map super ns)
  | n => n
  end.
