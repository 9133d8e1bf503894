(** * Model of closestmatch/closestmatch.go.

    Strings are byte lists.  Maps are association lists with distinct keys; Go's random iteration order is an arbitrary
    permutation wherever the code ranges over a map.  strings.ToLower is a parameter [lower] (its Unicode tables are not
    modelled).  Substring sizes are nat (a negative size is a slice panic in Go).  ints are nat: all values are positive and
    far below 2^63.  Load and Save are in CmSave.v, AccuracyMutatingWords and AccuracyMutatingLetters in CmAcc.v. *)
From Coq Require Import String.
From Coq Require Import ZArith NArith Arith List Bool Permutation.
From Verif Require Import Utf8 GoStr.
Import ListNotations.
Open Scope nat_scope.

(** ** Maps *)
Section Map.
  Context {K V : Type} (dec : forall a b : K, {a = b} + {a <> b}).
  Fixpoint get (m : list (K * V)) (k : K) : option V :=
    match m with [] => None | (k', v) :: t => if dec k k' then Some v else get t k end.
  Fixpoint put (m : list (K * V)) (k : K) (v : V) : list (K * V) :=
    match m with [] => [(k, v)] | (k', v') :: t => if dec k k' then (k, v) :: t else (k', v') :: put t k v end.
End Map.
(** A map to struct{} used as a set: insertion. *)
Definition insert (i : N) (l : list N) : list N := if in_dec N.eq_dec i l then l else l ++ [i].

(** type ClosestMatch (closestmatch.go:16-21) and IDInfo (23-26). *)
Record CM := { SubstringSizes : list nat; SubstringToID : list (str * list N); ID : list (N * (str * nat)) }.

(** func (cm *ClosestMatch) splitWord (closestmatch.go:198-212): the set, as a list without duplicates. *)
Definition substrings (sizes : list nat) (word : str) : list str :=
  flat_map (fun j => map (fun i => firstn j (skipn i word)) (seq 0 (S (length word) - j))) sizes.
Definition splitWord (sizes : list nat) (word : str) : list str :=
  match nodup str_dec (filter (fun s => negb (blank s)) (substrings sizes word)) with
  | [] => [word]
  | l => l
  end.

Definition uint32 (i : nat) : N := (N.of_nat i mod 2 ^ 32)%N.
(** cm.SubstringToID[substring][id] = struct{}{}, creating the inner map if absent (closestmatch.go:38-43). *)
Definition add_sub (m : list (str * list N)) (g : str) (id : N) : list (str * list N) :=
  put str_dec m g (insert id (match get str_dec m g with Some l => l | None => [] end)).
(** The body of the loops of New and Add (closestmatch.go:35-44, 71-80); order = the order in which the set of substrings is ranged over. *)
Definition add_word (cm : CM) (i : nat) (s : str) (order : list str) : CM :=
  {| SubstringSizes := SubstringSizes cm;
     SubstringToID := fold_left (fun m g => add_sub m g (uint32 i)) order (SubstringToID cm);
     ID := put N.eq_dec (ID cm) (uint32 i) (s, length order) |}.
(** for i, s := range possible {...} *)
Inductive Adds (lower : str -> str) : CM -> nat -> list str -> CM -> Prop :=
  | Adds_nil cm i : Adds lower cm i [] cm
  | Adds_cons cm i s rest order cm' : Permutation order (splitWord (SubstringSizes cm) (lower s)) ->
      Adds lower (add_word cm i s order) (S i) rest cm' -> Adds lower cm i (s :: rest) cm'.
(** func New (closestmatch.go:30-47). *)
Definition New (lower : str -> str) (possible : list str) (sizes : list nat) (cm : CM) : Prop :=
  Adds lower {| SubstringSizes := sizes; SubstringToID := []; ID := [] |} 0 possible cm.
(** func (cm *ClosestMatch) Add (closestmatch.go:69-82): i starts at 0 again. *)
Definition Add (lower : str -> str) (cm : CM) (possible : list str) (cm' : CM) : Prop := Adds lower cm 0 possible cm'.

(** ** match and its workers *)
(** cm.ID[id].Key; the zero IDInfo has the empty key. *)
Definition key_of (cm : CM) (id : N) : str := match get N.eq_dec (ID cm) id with Some (k, _) => k | None => [] end.
(** m[key] += v, starting from 0. *)
Definition bump (m : list (str * nat)) (k : str) (v : nat) : list (str * nat) :=
  put str_dec m k ((match get str_dec m k with Some x => x | None => 0 end) + v).
(** The loop of worker over ids (closestmatch.go:104-109); None = division by zero. *)
Fixpoint score_ids (cm : CM) (weight : nat) (order : list N) (m : list (str * nat)) : option (list (str * nat)) :=
  match order with
  | [] => Some m
  | id :: rest =>
      match length (key_of cm id) with
      | 0 => None
      | n => score_ids cm weight rest (bump m (key_of cm id) (1 + 1000 / n + weight))
      end
  end.
(** What a worker computes for a job (closestmatch.go:100-111); order = iteration order of the set of ids. *)
Inductive work (cm : CM) (g : str) : option (list (str * nat)) -> Prop :=
  | work_absent : get str_dec (SubstringToID cm) g = None -> work cm g (Some [])
  | work_none : get str_dec (SubstringToID cm) g = Some [] -> work cm g None          (* 1000 / 0 *)
  | work_ids ids order : get str_dec (SubstringToID cm) g = Some ids -> ids <> [] -> Permutation order ids ->
      work cm g (score_ids cm (1000 / length ids) order []).

(** A worker goroutine (closestmatch.go:98-114): waiting for a job, holding a job, inside the mutex, about to send, ended. *)
Inductive Worker := Idle | Got (g : str) | Locked (g : str) | Sending (r : list (str * nat)) | Ended.
(** match (closestmatch.go:124-154), with its channels, mutex and workers. *)
Record State := {
  todo : list str;                         (* substrings not yet sent on jobs *)
  closed : bool;                           (* close(jobs) done *)
  jobs : list str;                         (* buffer of jobs *)
  workers : list Worker;
  owner : option nat;                      (* holder of cm.mux *)
  results : list (list (str * nat));       (* buffer of results *)
  received : nat;
  acc : list (str * nat);                  (* m *)
  returned : bool }.
Fixpoint set_nth {A} (l : list A) (i : nat) (x : A) : list A :=
  match l, i with [], _ => [] | _ :: t, O => x :: t | a :: t, S j => a :: set_nth t j x end.
(** for key := range r.m { m[key] += r.m[key] or m[key] = r.m[key] } (closestmatch.go:144-150). *)
Definition merge (m entries : list (str * nat)) : list (str * nat) := fold_left (fun m e => bump m (fst e) (snd e)) entries m.
Inductive Outcome := Run (s : State) | Crash.
Section Step.
  Variable cm : CM.
  Variable cap : nat.    (* searchSubstringsLen: capacity of both channels and number of results awaited *)
  Inductive step (s : State) : Outcome -> Prop :=
    | s_send g t : todo s = g :: t -> length (jobs s) < cap ->
        step s (Run {| todo := t; closed := closed s; jobs := jobs s ++ [g]; workers := workers s; owner := owner s;
                       results := results s; received := received s; acc := acc s; returned := returned s |})
    | s_close : todo s = [] -> closed s = false ->
        step s (Run {| todo := []; closed := true; jobs := jobs s; workers := workers s; owner := owner s;
                       results := results s; received := received s; acc := acc s; returned := returned s |})
    | s_receive r rs entries : closed s = true -> received s < cap -> results s = r :: rs -> Permutation entries r ->
        step s (Run {| todo := todo s; closed := true; jobs := jobs s; workers := workers s; owner := owner s;
                       results := rs; received := S (received s); acc := merge (acc s) entries; returned := returned s |})
    | s_return : closed s = true -> received s = cap -> returned s = false ->
        step s (Run {| todo := todo s; closed := true; jobs := jobs s; workers := workers s; owner := owner s;
                       results := results s; received := received s; acc := acc s; returned := true |})
    | w_take i g js : nth_error (workers s) i = Some Idle -> jobs s = g :: js ->
        step s (Run {| todo := todo s; closed := closed s; jobs := js; workers := set_nth (workers s) i (Got g); owner := owner s;
                       results := results s; received := received s; acc := acc s; returned := returned s |})
    | w_end i : nth_error (workers s) i = Some Idle -> jobs s = [] -> closed s = true ->
        step s (Run {| todo := todo s; closed := true; jobs := []; workers := set_nth (workers s) i Ended; owner := owner s;
                       results := results s; received := received s; acc := acc s; returned := returned s |})
    | w_lock i g : nth_error (workers s) i = Some (Got g) -> owner s = None ->
        step s (Run {| todo := todo s; closed := closed s; jobs := jobs s; workers := set_nth (workers s) i (Locked g); owner := Some i;
                       results := results s; received := received s; acc := acc s; returned := returned s |})
    | w_unlock i g r : nth_error (workers s) i = Some (Locked g) -> owner s = Some i -> work cm g (Some r) ->
        step s (Run {| todo := todo s; closed := closed s; jobs := jobs s; workers := set_nth (workers s) i (Sending r); owner := None;
                       results := results s; received := received s; acc := acc s; returned := returned s |})
    | w_panic i g : nth_error (workers s) i = Some (Locked g) -> owner s = Some i -> work cm g None -> step s Crash
    | w_send i r : nth_error (workers s) i = Some (Sending r) -> length (results s) < cap ->
        step s (Run {| todo := todo s; closed := closed s; jobs := jobs s; workers := set_nth (workers s) i Idle; owner := owner s;
                       results := results s ++ [r]; received := received s; acc := acc s; returned := returned s |}).
  (** A run of k steps. *)
  Inductive runs : nat -> State -> State -> Prop :=
    | runs0 s : runs 0 s s
    | runsS k s s1 s2 : runs k s s1 -> step s1 (Run s2) -> runs (S k) s s2.
End Step.
(** The start of match for a query: order = iteration order of the set of query substrings; workers := 8. *)
Definition start (order : list str) : State :=
  {| todo := order; closed := false; jobs := []; workers := repeat Idle 8; owner := None; results := []; received := 0; acc := []; returned := false |}.
Definition reachable (cm : CM) (q : str) (s : State) : Prop :=
  exists order k, Permutation order (splitWord (SubstringSizes cm) q) /\ runs cm (length order) k (start order) s.
Definition crashes (cm : CM) (q : str) : Prop :=
  exists order k s, Permutation order (splitWord (SubstringSizes cm) q) /\ runs cm (length order) k (start order) s /\ step cm (length order) s Crash.
(** match returned m. *)
Definition match_ (cm : CM) (q : str) (m : list (str * nat)) : Prop := exists s, reachable cm q s /\ returned s = true /\ acc s = m.

(** rankByWordCount (closestmatch.go:176-185, PairList 187-196): sort.Sort(sort.Reverse(pl)) is some ordering by non-increasing value. *)
Fixpoint descending (l : list (str * nat)) : Prop :=
  match l with a :: ((b :: _) as t) => snd b <= snd a /\ descending t | _ => True end.
Definition rankByWordCount (m pl : list (str * nat)) : Prop := Permutation pl m /\ descending pl.
(** func Closest (closestmatch.go:157-162). *)
Definition Closest (cm : CM) (q : str) (res : str) : Prop :=
  exists m pl, match_ cm q m /\ rankByWordCount m pl /\ res = match pl with [] => [] | (k, _) :: _ => k end.
(** func ClosestN (closestmatch.go:165-174) for max >= 0 (make panics below 0). *)
Definition ClosestN (cm : CM) (q : str) (max : nat) (res : list str) : Prop :=
  exists m pl, match_ cm q m /\ rankByWordCount m pl /\ res = map fst (firstn max pl).
