(** * The patterns whose globs never crash (C68): a condition on the alternatives of {..,..}.

    Only syntax trees are mentioned. *)
From Coq Require Import ZArith Arith List Bool.
From Verif Require Import Utf8 GoStr GlobLex.
Import ListNotations.
Open Scope nat_scope.

(** The alternative c has nothing of its own: all alternatives begin with a part of it and end with the rest of it.
    So has the empty alternative, and a in {a*,a}. *)
Definition covers (c : list Node) (alts : list (list Node)) : Prop :=
  exists u v, c = u ++ v /\ Forall (fun d => exists w, d = u ++ w ++ v) alts.
(** A text, a class that is not negated, or a range. *)
Definition plain (n : Node) : Prop := match n with NText _ | NList false _ | NRange _ _ _ => True | _ => False end.
(** Not all alternatives are empty, and an alternative that has nothing of its own is the first one, or comes (for the first time)
    after one of texts, classes and ranges only. *)
Definition settled (alts : list (list Node)) : Prop :=
  (exists d, In d alts /\ d <> []) /\
  forall before c after, alts = before ++ c :: after -> covers c alts -> ~ In c before -> before = [] \/ Exists (Forall plain) before.
Inductive safe : Node -> Prop :=
  | safe_text t : t <> [] -> safe (NText t)
  | safe_any : safe NAny
  | safe_super : safe NSuper
  | safe_single : safe NSingle
  | safe_list not cs : safe (NList not cs)
  | safe_range not lo hi : safe (NRange not lo hi)
  | safe_group alts : Forall (Forall safe) alts -> settled alts -> safe (NAnyOf (map NPattern alts)).
