(** * The patterns for which compiled globs are proved to mean what the documentation says (C46).

    Terms over ASCII characters, and the conditions on neighbouring terms.  Only syntax trees are mentioned. *)
From Coq Require Import String.
From Coq Require Import ZArith Arith List Bool.
From Verif Require Import Utf8 GoStr GlobLex GlobMatch GlobCompile GlobSpec.
Import ListNotations.
Open Scope nat_scope.

(** A text, a wildcard or a character class, of ASCII characters. *)
Definition leaf (n : Node) : Prop :=
  match n with
  | NText t => ascii t /\ t <> []
  | NAny | NSuper | NSingle => True
  | NList _ cs => ascii cs /\ cs <> []
  | NRange _ lo hi => (0 <= lo)%Z /\ (hi < 128)%Z
  | _ => False
  end.
(** How many characters a term stands for, if that is fixed. *)
Definition width (n : Node) : option nat := match n with NText t => Some (length t) | NSingle | NList _ _ | NRange _ _ _ => Some 1 | _ => None end.
(** ? and the negated classes: any character but some. *)
Definition negative_leaf (n : Node) : Prop := match n with NSingle | NList true _ | NRange true _ _ => True | _ => False end.
(** {l1,l2,...} with each alternative one term of fixed width, not all the same. *)
Definition choice (ls : list Node) : Node := NAnyOf (map (fun l => NPattern [l]) ls).
Definition choices (ls : list Node) : Prop :=
  Forall (fun l => leaf l /\ width l <> None) ls /\ (exists a b, In a ls /\ In b ls /\ a <> b).
Definition same_width (ls : list Node) : Prop := forall a b, In a ls -> In b ls -> width a = width b.
(** A term: a leaf, or alternatives that have the same width or contain no ? and no negated class. *)
Definition term (n : Node) : Prop :=
  leaf n \/ exists ls, n = choice ls /\ choices ls /\ (same_width ls \/ Forall (fun l => ~ negative_leaf l) ls).
Definition negative (n : Node) : Prop := negative_leaf n \/ exists ls, n = choice ls /\ Exists negative_leaf ls.
(** * and **. *)
Definition star (n : Node) : Prop := n = NAny \/ n = NSuper.
(** Alternatives of different widths. *)
Definition variable (n : Node) : Prop := exists ls, n = choice ls /\ ~ same_width ls.
(** The characters a wildcard or negated class does not stand for. *)
Definition excluded (seps : list Z) (n : Node) : option (list Z) :=
  match n with NSuper => Some [] | NAny | NSingle => Some seps | NList true cs => Some (runes cs) | _ => None end.
(** n' may come right after n:
    - if both exclude the same characters, then at most one;
    - if both are stars, they exclude the same characters;
    - a * that excludes several characters is not followed by a wildcard, a negated class or alternatives of different widths. *)
Definition may_follow (seps : list Z) (n n' : Node) : Prop :=
  (forall e, excluded seps n = Some e -> excluded seps n' = Some e -> length e <= 1)
  /\ (star n -> star n' -> excluded seps n = excluded seps n')
  /\ (n = NAny -> 2 <= length seps -> excluded seps n' = None /\ ~ variable n').
Fixpoint sequence (seps : list Z) (ns : list Node) : Prop :=
  match ns with n :: (n' :: _) as rest => may_follow seps n n' /\ sequence seps rest | _ => True end.
(** A literal text: characters, or a class of a single character. *)
Definition literal (n : Node) : option str := match n with NText t => Some t | NList false [c] => Some [c] | _ => None end.
(** A star that crosses separators, or a star when there are none. *)
Definition wide (seps : list Z) (n : Node) : Prop := n = NSuper \/ (n = NAny /\ seps = []).
(** text stars text: p ** q. *)
Definition between (seps : list Z) (ns : list Node) (p q : str) : Prop :=
  exists a mid b, ns = a :: mid ++ [b] /\ literal a = Some p /\ literal b = Some q /\ mid <> [] /\ Forall (wide seps) mid.
(** The compiled glob decides membership of s in L without panicking. *)
Definition decides (m : Matcher) (L : str -> Prop) (s : str) : Prop := (accepts m s /\ L s) \/ (rejects m s /\ ~ L s).
