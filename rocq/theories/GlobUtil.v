(** * Model of glob/util/runes/runes.go, glob/match/segments.go and reverseSegments (glob/match/match.go). *)
From Coq Require Import ZArith Arith List Bool.
Import ListNotations.
Open Scope nat_scope.

(** ** runes.go: slices of runes; an index is an int, -1 = not found. *)
(** IndexRune (runes.go:113-120). *)
Fixpoint IndexRune_from (s : list Z) (r : Z) (i : nat) : Z :=
  match s with [] => (-1)%Z | c :: t => if (c =? r)%Z then Z.of_nat i else IndexRune_from t r (S i) end.
Definition IndexRune (s : list Z) (r : Z) : Z := IndexRune_from s r 0.
(** IndexLastRune (runes.go:122-130): i counts down from len(s) - 1. *)
Fixpoint IndexLastRune_from (s : list Z) (r : Z) (n : nat) : Z :=
  match n with O => (-1)%Z | S i => if (nth i s 0 =? r)%Z then Z.of_nat i else IndexLastRune_from s r i end.
Definition IndexLastRune (s : list Z) (r : Z) : Z := IndexLastRune_from s r (length s).
(** Equal (runes.go:132-144): lengths, then the elements in order. *)
Fixpoint Equal_loop (n : nat) (a b : list Z) (i : nat) : bool :=
  match n with O => true | S k => if (nth i a 0 =? nth i b 0)%Z then Equal_loop k a b (S i) else false end.
Definition Equal (a b : list Z) : bool := if length a =? length b then Equal_loop (length a) a b 0 else false.
(** The inner loop of Index (runes.go:20-26): s[i+y] = needle[y] for all y from y on. *)
Fixpoint here (n : nat) (s needle : list Z) (i y : nat) : bool :=
  match n with O => true | S k => if (nth (i + y) s 0 =? nth y needle 0)%Z then here k s needle i (S y) else false end.
(** The outer loop (runes.go:19-29): i < ls && ls-i >= ln. *)
Fixpoint Index_loop (fuel : nat) (s needle : list Z) (i : nat) : Z :=
  match fuel with
  | O => (-1)%Z
  | S f => if (i <? length s) && (length needle <=? length s - i)
           then if here (length needle) s needle i 0 then Z.of_nat i else Index_loop f s needle (S i)
           else (-1)%Z
  end.
(** Index (runes.go:3-32). *)
Definition RIndex (s needle : list Z) : Z :=
  let ls := length s in let ln := length needle in
  if ln =? 0 then 0%Z
  else if ln =? 1 then IndexRune s (nth 0 needle 0%Z)
  else if ln =? ls then (if Equal s needle then 0 else -1)%Z
  else if ls <? ln then (-1)%Z
  else Index_loop (S ls) s needle 0.
(** The inner loop of LastIndex (runes.go:54-58), y from n-1 down: s[i-(ln-y-1)] = needle[y]. *)
Fixpoint here_back (n : nat) (s needle : list Z) (i : nat) : bool :=
  match n with O => true | S y => if (nth (i - (length needle - y - 1)) s 0 =? nth y needle 0)%Z then here_back y s needle i else false end.
(** The outer loop (runes.go:52-63): i >= 0 && i >= ln, counting down. *)
Fixpoint LastIndex_loop (n : nat) (s needle : list Z) : Z :=   (* i = n - 1 *)
  match n with
  | O => (-1)%Z
  | S i => if length needle <=? i
           then if here_back (length needle) s needle i then (Z.of_nat i - Z.of_nat (length needle) + 1)%Z else LastIndex_loop i s needle
           else (-1)%Z
  end.
(** LastIndex (runes.go:34-66). *)
Definition RLastIndex (s needle : list Z) : Z :=
  let ls := length s in let ln := length needle in
  if ln =? 0 then Z.of_nat ls
  else if ln =? 1 then IndexLastRune s (nth 0 needle 0%Z)
  else if ln =? ls then (if Equal s needle then 0 else -1)%Z
  else if ls <? ln then (-1)%Z
  else LastIndex_loop ls s needle.
(** IndexAny (runes.go:70-81). *)
Fixpoint IndexAny_from (s chars : list Z) (i : nat) : Z :=
  match s with [] => (-1)%Z | c :: t => if existsb (fun m => (c =? m)%Z) chars then Z.of_nat i else IndexAny_from t chars (S i) end.
Definition IndexAny (s chars : list Z) : Z := if 0 <? length chars then IndexAny_from s chars 0 else (-1)%Z.
(** Contains (runes.go:83-85). *)
Definition RContains (s needle : list Z) : bool := (0 <=? RIndex s needle)%Z.
(** Max (runes.go:87-95) and Min (runes.go:97-111). *)
Definition RMax (s : list Z) : Z := fold_left (fun m r => if (r >? m)%Z then r else m) s 0%Z.
Definition RMin (s : list Z) : Z := fold_left (fun m r => if (m =? -1)%Z then r else if (r <? m)%Z then r else m) s (-1)%Z.
(** HasPrefix and HasSuffix (runes.go:147-154). *)
Definition RHasPrefix (s p : list Z) : bool := (length p <=? length s) && Equal (firstn (length p) s) p.
Definition RHasSuffix (s p : list Z) : bool := (length p <=? length s) && Equal (skipn (length s - length p) s) p.

(** ** match.go:74-81: reverseSegments, swapping in place. *)
Fixpoint upd {A} (l : list A) (i : nat) (x : A) : list A := match l, i with [], _ => [] | _ :: t, O => x :: t | y :: t, S j => y :: upd t j x end.
Fixpoint rev_loop (n i : nat) (l : list nat) : list nat :=     (* n rounds left *)
  match n with O => l | S k => rev_loop k (S i) (upd (upd l i (nth (length l - i - 1) l 0)) (length l - i - 1) (nth i l 0)) end.
Definition reverseSegments (l : list nat) : list nat := rev_loop (length l / 2) 0 l.

(** ** segments.go: the pools of segment slices.  ints are 64 bit; v++ may wrap. *)
Definition wrap64 (x : Z) : Z := ((x + 2 ^ 63) mod 2 ^ 64 - 2 ^ 63)%Z.
(** toPowerOfTwo (segments.go:14-24). *)
Definition toPowerOfTwo (v : Z) : Z :=
  (let v := wrap64 (v - 1) in
   let v := Z.lor v (Z.shiftr v 1) in let v := Z.lor v (Z.shiftr v 2) in let v := Z.lor v (Z.shiftr v 4) in
   let v := Z.lor v (Z.shiftr v 8) in let v := Z.lor v (Z.shiftr v 16) in wrap64 (v + 1))%Z.
(** init (segments.go:49-57): the pools that get a New function, for i := 1024; i >= 16; i >>= 1. *)
Fixpoint init_loop (fuel : nat) (i : Z) : list Z :=
  match fuel with O => [] | S f => if (16 <=? i)%Z then (i - 1)%Z :: init_loop f (Z.shiftr i 1) else [] end.
Definition initialised : list Z := init_loop 100 1024.
(** getTableIndex (segments.go:59-69). *)
Definition getTableIndex (c : Z) : Z :=
  (let p := toPowerOfTwo c in if 1024 <=? p then 1023 else if p <=? 16 then 15 else p - 1)%Z.
(** acquireSegments (segments.go:71-79): a fresh slice with that capacity, or one from that pool.  None = panic: a negative size, an index outside
    the table of 1024 pools, or Get of a pool without New on an empty pool, whose nil result fails the type assertion. *)
Inductive Acquired := Fresh (cap : Z) | Pooled (pool : Z).
Definition acquireSegments (c : Z) : option Acquired :=
  if (c <? 16)%Z then if (c <? 0)%Z then None else Some (Fresh c)
  else let i := getTableIndex c in if ((0 <=? i) && (i <? 1024))%Z && existsb (Z.eqb i) initialised then Some (Pooled i) else None.
(** releaseSegments (segments.go:81-91), given the capacity: the pool the slice is put in, if any. *)
Definition releaseSegments (cap : Z) : option (option Z) :=
  if (cap <? 16)%Z then Some None
  else let i := getTableIndex cap in if ((0 <=? i) && (i <? 1024))%Z then Some (Some i) else None.
