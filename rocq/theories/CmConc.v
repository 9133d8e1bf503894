(** * Model of closestmatch.go: any number of searches and Adds on one index at the same time.

    Every search has channels and workers of its own (CmModel.State, whose owner says which of its workers holds cm.mux); the index and the mutex
    are shared.  SubstringToID and ID are only touched between cm.mux.Lock and cm.mux.Unlock (closestmatch.go:101-111, 70-81), so what is done
    there is one step, the unlocking; SubstringSizes is never written.  Load, Save and the accuracy measurements are not among the calls. *)
From Coq Require Import List Arith Permutation.
From Verif Require Import GoStr CmModel.
Import ListNotations.
Open Scope nat_scope.

(** A call: match(q) (closestmatch.go:124-154; Closest and ClosestN only rank what it returns) or Add(ws) (69-82).
    since: the number of the version of the index at the time of the call. *)
Inductive Proc :=
  | Query (q : str)
  | Searching (q : str) (order : list str) (since : nat) (s : State)
  | Adding (ws : list str)
  | AddLocked (ws : list str)
  | Added (ws : list str).
(** history: the earlier versions of the index, the oldest first; lock: the call that holds cm.mux. *)
Record World := { history : list CM; index : CM; lock : option nat; procs : list Proc }.
Definition versions (w : World) : list CM := history w ++ [index w].

(** A step of any of the calls (None = the program dies of a division by zero in a worker). *)
Inductive wstep (lower : str -> str) (w : World) : option World -> Prop :=
  (* match is called: splitWord, the channels, the workers (closestmatch.go:124-135) *)
  | c_call p q order : nth_error (procs w) p = Some (Query q) -> Permutation order (splitWord (SubstringSizes (index w)) q) ->
      wstep lower w (Some {| history := history w; index := index w; lock := lock w;
                             procs := set_nth (procs w) p (Searching q order (length (history w)) (start order)) |})
  (* a step that does not touch the mutex *)
  | c_free p q order since s s' : nth_error (procs w) p = Some (Searching q order since s) ->
      step (index w) (length order) s (Run s') -> owner s' = owner s ->
      wstep lower w (Some {| history := history w; index := index w; lock := lock w; procs := set_nth (procs w) p (Searching q order since s') |})
  (* cm.mux.Lock() of a worker (101) *)
  | c_lock p q order since s s' : nth_error (procs w) p = Some (Searching q order since s) ->
      step (index w) (length order) s (Run s') -> owner s = None -> owner s' <> None -> lock w = None ->
      wstep lower w (Some {| history := history w; index := index w; lock := Some p; procs := set_nth (procs w) p (Searching q order since s') |})
  (* the scoring and cm.mux.Unlock() of a worker (102-111) *)
  | c_unlock p q order since s s' : nth_error (procs w) p = Some (Searching q order since s) ->
      step (index w) (length order) s (Run s') -> owner s <> None -> owner s' = None ->
      wstep lower w (Some {| history := history w; index := index w; lock := None; procs := set_nth (procs w) p (Searching q order since s') |})
  | c_crash p q order since s : nth_error (procs w) p = Some (Searching q order since s) -> step (index w) (length order) s Crash -> wstep lower w None
  (* cm.mux.Lock() of Add (70) *)
  | a_lock p ws : nth_error (procs w) p = Some (Adding ws) -> lock w = None ->
      wstep lower w (Some {| history := history w; index := index w; lock := Some p; procs := set_nth (procs w) p (AddLocked ws) |})
  (* the loop and cm.mux.Unlock() of Add (71-81) *)
  | a_unlock p ws cm' : nth_error (procs w) p = Some (AddLocked ws) -> Add lower (index w) ws cm' ->
      wstep lower w (Some {| history := history w ++ [index w]; index := cm'; lock := None; procs := set_nth (procs w) p (Added ws) |}).
Inductive wruns (lower : str -> str) : nat -> World -> World -> Prop :=
  | wruns0 w : wruns lower 0 w w
  | wrunsS k w w1 w2 : wruns lower k w w1 -> wstep lower w1 (Some w2) -> wruns lower (S k) w w2.

(** The calls made on an index. *)
Inductive Call := CallSearch (q : str) | CallAdd (ws : list str).
Definition proc_of (c : Call) : Proc := match c with CallSearch q => Query q | CallAdd ws => Adding ws end.
Definition begin (cm : CM) (calls : list Call) : World := {| history := []; index := cm; lock := None; procs := map proc_of calls |}.
Definition after (lower : str -> str) (cm : CM) (calls : list Call) (w : World) : Prop := exists k, wruns lower k (begin cm calls) w.
(** The call number p was a search for q; it began when version number since was the index, and it has returned m. *)
Definition found (w : World) (p : nat) (q : str) (since : nat) (m : list (str * nat)) : Prop :=
  exists order s, nth_error (procs w) p = Some (Searching q order since s) /\ returned s = true /\ m = acc s.
