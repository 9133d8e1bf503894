(** * Specification vocabulary for commands given exact names (C63). *)
From Coq Require Import String ZArith Arith List.
From Verif Require Import GoStr FsModel CmSpec RepoSpec CmdModel CmdSpec.
Import ListNotations.
Open Scope nat_scope.

(** The two bytes g occur in s, one after the other. *)
Definition pair_in (s g : str) : Prop := length g = 2 /\ exists before after, s = before ++ g ++ after.
(** No two adjacent bytes of s occur twice in it, and none are only white space. *)
Definition pairs_once (s : str) : Prop :=
  (forall g a b a' b', length g = 2 -> s = a ++ g ++ b -> s = a' ++ g ++ b' -> a = a') /\ (forall g, pair_in s g -> blank g = false).
(** Every two adjacent bytes of e are adjacent bytes of the lower-case form of k. *)
Definition has_pairs_of (lower : str -> str) (k e : str) : Prop := forall g, pair_in e g -> pair_in (lower k) g.
(** The sizes for which rounding in the scores cannot favour a shorter name. *)
Definition small (entries len : nat) : Prop := (entries <= 500 /\ len <= 20) \/ (entries <= 100 /\ len <= 27) \/ (entries <= 50 /\ len <= 35).
(** Lower-casing makes no name longer (it can for a few letters outside ASCII). *)
Definition no_longer (lower : str -> str) (ws : list str) : Prop := forall k, In k ws -> length (lower k) <= length k.
(** ASCII lower-case words are their own lower-case form. *)
Definition keeps_lower (lower : str -> str) : Prop := forall s, Forall (fun b => 97 <= b <= 122)%Z s -> lower s = s.
(** What show without -q writes for the entry f with this content. *)
Definition shows (a : ShowCmd) (f content : str) (o : Outcome) : Prop :=
  exists texts, shown content texts /\
    ((binary texts /\ o = Done (lit "Pass '" ++ f ++ lit "'" ++ eol ++ eol ++ lit "Error: cannot show binary file" ++ eol) [] ENil) \/
     (~ binary texts /\ o = Done (lit "Pass '" ++ f ++ lit "'" ++ eol ++ eol ++ show_body (LineNumbers a) (Line a) texts) [] ENil)).
(** By the numbers of pairs alone, the entry named e beats k among this many entries: n is the number of distinct pairs of e and m how
    many of them k has. *)
Definition outweighs (lower : str -> str) (entries : nat) (e k : str) : Prop :=
  forall gs has, lists_grams [2] e gs -> decides_gram lower [2] has ->
    let n := length gs in let m := length (filter (has k) gs) in
    m * (1000 / length k) < n * (1000 / length e) + (n - m) * (1 + 1000 / entries).
