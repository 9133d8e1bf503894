(** * Specification vocabulary for closest matching (C26-C30), independent of the model of the code. *)
From Coq Require Import ZArith NArith Arith List Bool.
From Verif Require Import GoStr.
Import ListNotations.
Open Scope nat_scope.

(** g is a contiguous, not blank piece of w of one of the given sizes. *)
Definition piece (sizes : list nat) (w g : str) : Prop :=
  blank g = false /\ In (length g) sizes /\ exists before after, w = before ++ g ++ after.
(** The substrings of w: its pieces, or w itself if it has none. *)
Definition gram (sizes : list nat) (w g : str) : Prop :=
  piece sizes w g \/ ((forall p, ~ piece sizes w p) /\ g = w).
(** [gs] lists the substrings of [q] without repetition. *)
Definition lists_grams (sizes : list nat) (q : str) (gs : list str) : Prop :=
  NoDup gs /\ forall g, In g gs <-> gram sizes q g.
(** [has w g] decides whether the list entry w, in lower case, has the substring g. *)
Definition decides_gram (lower : str -> str) (sizes : list nat) (has : str -> str -> bool) : Prop :=
  forall w g, has w g = true <-> gram sizes (lower w) g.
(** The bag-of-substrings score of the word k for the query q over the list ws: every distinct substring of the query that k
    has counts, for each occurrence of k in the list, 1 + 1000/len(k) + 1000/(number of list entries having it). *)
Definition is_score (lower : str -> str) (sizes : list nat) (ws : list str) (q k : str) (v : nat) : Prop :=
  exists gs has, lists_grams sizes q gs /\ decides_gram lower sizes has /\
    v = list_sum (map (fun g => if has k g then
          count_occ str_dec ws k * (1 + 1000 / length k + 1000 / length (filter (fun w => has w g) ws)) else 0) gs).
(** The query and the word share a substring. *)
Definition shares (lower : str -> str) (sizes : list nat) (q k : str) : Prop :=
  exists g, gram sizes q g /\ gram sizes (lower k) g.
(** uint32 can number the entries. *)
Definition fits (ws : list str) : Prop := (N.of_nat (length ws) <= 2 ^ 32)%N.
