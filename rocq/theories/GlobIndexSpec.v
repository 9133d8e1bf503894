(** * What Index of a matcher should find (C64): the leftmost place where the matcher's language occurs, and all lengths there.

    Strings are given by their characters: the argument is [utf8 cs].  Positions and lengths are in bytes, at character boundaries. *)
From Coq Require Import String.
From Coq Require Import ZArith Arith List Bool Sorting.Sorted.
From Verif Require Import Utf8 GoStr GlobLex GlobMatch GlobSpec.
Import ListNotations.
Open Scope nat_scope.

(** The strings each matcher stands for (by their characters). *)
Fixpoint lang_of (m : Matcher) (b : list Z) {struct m} : Prop :=
  let fix one (ms : list Matcher) : Prop := match ms with [] => False | m :: t => lang_of m b \/ one t end in
  let fix all (ms : list Matcher) : Prop := match ms with [] => True | m :: t => lang_of m b /\ all t end in
  let fix cat (ms : list Matcher) (b : list Z) : Prop := match ms with [] => b = [] | m :: t => exists u v, b = u ++ v /\ lang_of m u /\ cat t v end in
  match m with
  | MText t => utf8 b = t
  | MAny e => Forall (fun c => ~ In c e) b
  | MSuper => True
  | MSingle e => exists c, b = [c] /\ ~ In c e
  | MList l not => exists c, b = [c] /\ (if not then ~ In c l else In c l)
  | MRange lo hi not => exists c, b = [c] /\ (if not then ~ (lo <= c <= hi)%Z else (lo <= c <= hi)%Z)
  | MNothing => b = []
  | MMin n => n <= length b /\ 1 <= length b
  | MMax n => length b <= n
  | MContains t not => if not then ~ (exists u v, utf8 b = u ++ t ++ v) else exists u v, utf8 b = u ++ t ++ v
  | MPrefix t => exists u, utf8 b = t ++ u
  | MSuffix t => exists u, utf8 b = u ++ t
  | MPrefixAny t e => exists u, utf8 b = t ++ utf8 u /\ Forall valid_rune u /\ Forall (fun c => ~ In c e) u
  | MSuffixAny t e => exists u, utf8 b = utf8 u ++ t /\ Forall valid_rune u /\ Forall (fun c => ~ In c e) u
  | MPrefixSuffix p q => (exists u, utf8 b = p ++ u) /\ (exists u, utf8 b = u ++ q)
  | MAnyOf ms => one ms
  | MEveryOf ms => all ms
  | MRow ms _ => cat ms b
  | MBTree v l r _ _ _ => exists x y z, b = x ++ y ++ z /\ match l with Some l => lang_of l x | None => x = [] end /\ lang_of v y /\ match r with Some r => lang_of r z | None => z = [] end
  end.
(** Index finds nothing exactly if no substring is in L; otherwise the leftmost place, and exactly the lengths with which L occurs there, in order. *)
Definition exact_index (m : Matcher) (L : list Z -> Prop) (cs : list Z) : Prop :=
  match Index m (utf8 cs) with
  | Some (Some (i, segs)) => exists a rest, cs = a ++ rest /\ i = length (utf8 a)
      /\ segs <> [] /\ (forall l, In l segs <-> exists b c, rest = b ++ c /\ l = length (utf8 b) /\ L b) /\ StronglySorted lt segs
      /\ forall a' b' c', cs = a' ++ b' ++ c' -> L b' -> length a <= length a'
  | Some None => forall a b c, cs = a ++ b ++ c -> ~ L b
  | None => False
  end.
(** The leftmost place with the shortest length only. *)
Definition shortest_index (m : Matcher) (L : list Z -> Prop) (cs : list Z) : Prop :=
  match Index m (utf8 cs) with
  | Some (Some (i, segs)) => exists a b c, cs = a ++ b ++ c /\ i = length (utf8 a) /\ segs = [length (utf8 b)] /\ L b
      /\ (forall a' b' c', cs = a' ++ b' ++ c' -> L b' -> length a <= length a') /\ (forall b' c', b ++ c = b' ++ c' -> L b' -> length b <= length b')
  | Some None => forall a b c, cs = a ++ b ++ c -> ~ L b
  | None => False
  end.
(** The same at the beginning of the string only. *)
Definition prefix_index (m : Matcher) (L : list Z -> Prop) (cs : list Z) : Prop :=
  match Index m (utf8 cs) with
  | Some (Some (i, segs)) => i = 0 /\ segs <> [] /\ forall l, In l segs <-> exists b c, cs = b ++ c /\ l = length (utf8 b) /\ L b
  | Some None => forall b c, cs = b ++ c -> ~ L b
  | None => False
  end.
(** The matchers whose Index is exact. *)
Fixpoint exact_kind (m : Matcher) : Prop :=
  let fix all (ms : list Matcher) : Prop := match ms with [] => True | m :: t => exact_kind m /\ all t end in
  match m with
  | MSuper | MSingle _ | MList _ _ | MRange _ _ _ | MNothing | MMin _ | MMax _ => True
  | MText t | MPrefix t => valid_utf8 t
  | MContains t not => if not then exists c, valid_rune c /\ t = encode c else valid_utf8 t          (* "does not contain": one character *)
  | MAny e => Forall valid_rune e /\ length e <= 1                                                    (* at most one separator *)
  | MPrefixAny t e => valid_utf8 t /\ Forall valid_rune e /\ length e <= 1
  | MPrefixSuffix p q => valid_utf8 p /\ exists c, valid_rune c /\ q = encode c /\ ~ In c (removelast (runes p))
  | MAnyOf ms => all ms
  | _ => False
  end.
