(** * Model of AccuracyMutatingWords and AccuracyMutatingLetters of closestmatch/closestmatch.go.

    math/rand: Intn(n) yields any number below n and panics for n = 0; the particular sequence that rand.Seed(1) starts is not
    modelled, every sequence is allowed.  The returned percentage is kept as the two counts it is the quotient of (0/0 is NaN). *)
From Coq Require Import String.
From Coq Require Import ZArith NArith Arith List Bool Permutation.
From Verif Require Import Utf8 GoStr CmModel.
Import ListNotations.
Open Scope nat_scope.

(** strings.Split(s, " "): never empty. *)
Fixpoint split_spaces (s : str) : list str :=
  match s with
  | [] => [[]]
  | c :: t => if (c =? 32)%Z then [] :: split_spaces t
              else match split_spaces t with w :: ws => (c :: w) :: ws | [] => [[c]] end
  end.
(** strings.Join(ws, " "). *)
Fixpoint join_spaces (ws : list str) : str :=
  match ws with [] => [] | [w] => w | w :: t => w ++ 32%Z :: join_spaces t end.
(** s[i] = c, cut out by slicing: s[:i] + string(c) + s[i+1:]. *)
Definition replace_at (i : nat) (c : Z) (s : str) : str := firstn i s ++ c :: skipn (S i) s.
(** append(words[:i], words[i+1:]...) and testString[:ii] + testString[ii+1:]. *)
Definition remove_at {A} (i : nat) (l : list A) : list A := firstn i l ++ skipn (S i) l.
(** letters[rand.Intn(len(letters))]: closestmatch.go:279-281, 326, 334. *)
Definition letter (c : Z) : Prop := (97 <= c <= 122)%Z.
(** for i := range words { j := rand.Intn(i + 1); swap words[i], words[j] } (closestmatch.go:268-271). *)
Inductive shuffle : nat -> list str -> list str -> Prop :=
  | sh_end i ws : length ws <= i -> shuffle i ws ws
  | sh_swap i j ws a b ws' : i < length ws -> j <= i -> nth_error ws i = Some a -> nth_error ws j = Some b ->
      shuffle (S i) (set_nth (set_nth ws i b) j a) ws' -> shuffle i ws ws'.

(** How a trial ends: it crashes (with cm.mux held or not), is passed over (continue), or counts. *)
Inductive Trial := Panics (locked : bool) | Passed | Counted (right : bool).
(** Choosing the test string (closestmatch.go:224-235, 304-315): rand.Intn(len(cm.ID)), then the map is ranged over, in any order,
    with i counting from 1.  None = rand.Intn(0). *)
Inductive chosen (cm : CM) : option str -> Prop :=
  | ch_empty : ID cm = [] -> chosen cm None
  | ch_zero order : ID cm <> [] -> Permutation order (ID cm) -> chosen cm (Some [])                       (* i is never 0 *)
  | ch_some order num id k n : num < length (ID cm) -> 0 < num -> Permutation order (ID cm) ->
      nth_error order (num - 1) = Some (id, (k, n)) -> chosen cm (Some k).
(** closest := cm.Closest(testString) and the comparison (closestmatch.go:283-289, 336-342). *)
Inductive asked (cm : CM) (test orig : str) : Trial -> Prop :=
  | ask_crash : crashes cm test -> asked cm test orig (Panics true)        (* the worker divides by zero inside the mutex *)
  | ask_answer res : Closest cm test res -> asked cm test orig (Counted (eqs res orig)).
(** Replacing two letters (closestmatch.go:274-281). *)
Inductive mutate_two : str -> option str -> Prop :=
  | m2_empty : mutate_two [] None
  | m2 s i1 c1 i2 c2 : s <> [] -> i1 < length s -> letter c1 -> i2 < length (replace_at i1 c1 s) -> letter c2 ->
      mutate_two s (Some (replace_at i2 c2 (replace_at i1 c1 s))).
(** The mutations of AccuracyMutatingWords (closestmatch.go:238-282): None = continue. *)
Inductive mutate_words (orig : str) : option str -> Prop :=
  | mw0_skip : length (split_spaces orig) < 3 -> mutate_words orig None
  | mw0 d : 3 <= length (split_spaces orig) -> d < length (split_spaces orig) ->
      mutate_words orig (Some (join_spaces (remove_at d (split_spaces orig))))
  | mw1_skip : length (split_spaces orig) <= 1 -> mutate_words orig None
  | mw1 d : 1 < length (split_spaces orig) -> d < length (split_spaces orig) ->
      mutate_words orig (Some (join_spaces (rev (remove_at d (split_spaces orig)))))
  | mw2 ws : (length (split_spaces orig) <= 1 /\ ws = split_spaces orig
              \/ 1 < length (split_spaces orig) /\ exists d, d < length (split_spaces orig) /\ shuffle 0 (remove_at d (split_spaces orig)) ws) ->
      forall r, mutate_two (join_spaces ws) r -> mutate_words orig r.
(** The mutations of AccuracyMutatingLetters (closestmatch.go:319-335): None = rand.Intn(0). *)
Inductive mutate_letter (orig : str) : option str -> Prop :=
  | ml_empty : orig = [] -> mutate_letter orig None
  | ml_replace i c : i < length orig -> letter c -> mutate_letter orig (Some (replace_at i c orig))
  | ml_delete i : i < length orig -> mutate_letter orig (Some (remove_at i orig))
  | ml_add i c : i < length orig -> letter c -> mutate_letter orig (Some (firstn i orig ++ c :: skipn i orig)).
(** One turn of the loop of AccuracyMutatingWords (closestmatch.go:222-290). *)
Inductive words_trial (cm : CM) : Trial -> Prop :=
  | wt_none : chosen cm None -> words_trial cm (Panics true)
  | wt_pass orig : chosen cm (Some orig) -> mutate_words orig None -> words_trial cm Passed
  | wt_ask orig test t : chosen cm (Some orig) -> mutate_words orig (Some test) -> asked cm test orig t -> words_trial cm t.
(** One turn of the loop of AccuracyMutatingLetters (closestmatch.go:302-343). *)
Inductive letters_trial (cm : CM) : Trial -> Prop :=
  | lt_none : chosen cm None -> letters_trial cm (Panics true)
  | lt_panic orig : chosen cm (Some orig) -> mutate_letter orig None -> letters_trial cm (Panics false)
  | lt_ask orig test t : chosen cm (Some orig) -> mutate_letter orig (Some test) -> asked cm test orig t -> letters_trial cm t.
(** n turns from given counts: None = panic, else percentCorrect and numTrials. *)
Inductive trials (trial : Trial -> Prop) : nat -> nat -> nat -> (bool + (nat * nat)) -> Prop :=
  | tr_end c t : trials trial 0 c t (inr (c, t))
  | tr_panic n c t b : trial (Panics b) -> trials trial (S n) c t (inl b)
  | tr_pass n c t r : trial Passed -> trials trial n c t r -> trials trial (S n) c t r
  | tr_count n c t b r : trial (Counted b) -> trials trial n (if b then S c else c) (S t) r -> trials trial (S n) c t r.
(** func AccuracyMutatingWords (closestmatch.go:217-292) and AccuracyMutatingLetters (291-346): 200 trials; the result is
    inl (panic, mutex held?) or inr (correct, counted), meaning 100.0 * correct / counted. *)
Definition AccuracyMutatingWords (cm : CM) := trials (words_trial cm) 200 0 0.
Definition AccuracyMutatingLetters (cm : CM) := trials (letters_trial cm) 200 0 0.
