(** * Patterns of texts and stars (C46 on arbitrary strings, C62). *)
From Coq Require Import String.
From Coq Require Import ZArith Arith List Bool.
From Verif Require Import Utf8 GoStr GlobLex GlobMatch GlobCompile GlobSpec GlobFragment.
Import ListNotations.

(** A text of any characters, or a star. *)
Definition text_or_star (n : Node) : Prop := match n with NText t => valid_utf8 t /\ t <> [] | NAny | NSuper => True | _ => False end.
(** One of two neighbours is a text, the other a star. *)
Definition kinds_differ (n n' : Node) : Prop := (star n /\ ~ star n') \/ (~ star n /\ star n').
Fixpoint alternating (ns : list Node) : Prop := match ns with n :: (n' :: _) as rest => kinds_differ n n' /\ alternating rest | _ => True end.
(** A single literal text around a star that crosses everything. *)
Definition text_star_text (seps : list Z) (ns : list Node) (p q : str) : Prop := exists n, wide seps n /\ ns = [NText p; n; NText q].
