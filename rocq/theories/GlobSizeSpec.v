(** * How big a compiled glob is.  Independent of the compiler: it only looks at the matcher that glob.Compile returned. *)
From Coq Require Import ZArith Arith List.
From Verif Require Import Utf8 GoStr GlobMatch.
Import ListNotations.

(** The number of matcher objects, plus the bytes of the texts and of the separators and class characters (four each) they hold. *)
Fixpoint size (m : Matcher) : nat :=
  match m with
  | MText s | MPrefix s | MSuffix s | MContains s _ => S (length s)
  | MPrefixSuffix p s => S (length p + length s)
  | MPrefixAny s seps | MSuffixAny s seps => S (length s + 4 * length seps)
  | MAny l | MSingle l | MList l _ => S (4 * length l)
  | MAnyOf ms | MEveryOf ms | MRow ms _ => S (list_sum (map size ms))
  | MBTree v l r _ _ _ =>
      S (size v + match l with Some x => size x | None => 0 end + match r with Some x => size x | None => 0 end)
  | _ => 1
  end.
(** How deep the matcher objects are nested: the depth of the calls of Match and Index. *)
Fixpoint depth (m : Matcher) : nat :=
  match m with
  | MAnyOf ms | MEveryOf ms | MRow ms _ => S (list_max (map depth ms))
  | MBTree v l r _ _ _ =>
      S (Nat.max (depth v) (Nat.max match l with Some x => depth x | None => 0 end match r with Some x => depth x | None => 0 end))
  | _ => 1
  end.
