(** * Alternatives in sequences in alternatives: the patterns of C46_nested.

    Sequences whose items are the leaves of GlobFragment or alternatives {p1,p2,..} of such sequences, to any depth.
    Only syntax trees (and what they stand for) are mentioned. *)
From Coq Require Import String.
From Coq Require Import ZArith Arith List Bool.
From Verif Require Import Utf8 GoStr GlobLex GlobMatch GlobCompile GlobSpec GlobFragment.
Import ListNotations.
Open Scope nat_scope.

(** How many characters a pattern stands for, if that is fixed and the library notices it: it does not for a run of two or
    more ? or negated classes that exclude the same characters. *)
Definition zlist_dec : forall a b : option (list Z), {a = b} + {a <> b}.
Proof. decide equality. apply (list_eq_dec Z.eq_dec). Defined.
Definition uniform (seps : list Z) (ns : list Node) : bool :=
  match ns with
  | n :: _ :: _ => match excluded seps n with
                   | Some e => forallb (fun n' => if zlist_dec (excluded seps n') (Some e) then true else false) ns
                   | None => false
                   end
  | _ => false
  end.
Fixpoint total_size (l : list (option nat)) : option nat :=
  match l with
  | [] => Some 0
  | Some k :: t => match total_size t with Some j => Some (k + j) | None => None end
  | None :: _ => None
  end.
Definition onat_eqb (a b : option nat) : bool := match a, b with Some x, Some y => x =? y | None, None => true | _, _ => false end.
Definition common_size (l : list (option nat)) : option nat := match l with [] => None | o :: t => if forallb (onat_eqb o) t then o else None end.
Fixpoint size (seps : list Z) (n : Node) : option nat :=
  match n with
  | NNothing => Some 0
  | NText t => Some (length t)
  | NSingle | NList _ _ | NRange _ _ _ => Some 1
  | NAny | NSuper => None
  | NPattern ns => if uniform seps ns then None else total_size (map (size seps) ns)
  | NAnyOf cs => common_size (map (size seps) cs)
  end.
(** The alternatives are not some of unknown size followed by some of one known size (the library then takes all to have that size:
    {tar*,zip} and *.{tar*,zip} after it, C46_order_refuted). *)
Definition ordered (seps : list Z) (alts : list (list Node)) : Prop :=
  forall before after k, alts = before ++ after -> before <> [] -> after <> [] ->
    Forall (fun a => size seps (NPattern a) = None) before -> Forall (fun a => size seps (NPattern a) = Some k) after -> False.
(** The alternatives do not all begin with the same item and do not all end with the same item. *)
Definition unshared (alts : list (list Node)) : Prop :=
  (forall n, ~ (forall a, In a alts -> hd_error a = Some n)) /\ (forall n, ~ (forall a, In a alts -> hd_error (rev a) = Some n)).
Definition group (alts : list (list Node)) : Node := NAnyOf (map NPattern alts).
(** The library can find all beginnings of a text that the pattern stands for; in ASCII texts ([bytes] = false) or in any bytes ([bytes] = true). *)
Inductive searchable (bytes : bool) (seps : list Z) : Node -> Prop :=
  | se_sized n k : size seps n = Some k -> searchable bytes seps n
  | se_super : searchable bytes seps NSuper
  | se_any : length seps <= 1 -> searchable bytes seps NAny
  | se_one n : searchable bytes seps n -> searchable bytes seps (NPattern [n])
  | se_text_super t : bytes = false -> searchable bytes seps (NPattern [NText t; NSuper])
  | se_text_any t : bytes = false -> length seps <= 1 -> searchable bytes seps (NPattern [NText t; NAny])
  | se_group alts : unshared alts -> (forall a, In a alts -> searchable bytes seps (NPattern a)) -> searchable bytes seps (group alts).
(** n' may come right after n:
    - if both exclude the same characters, then at most one;
    - not both stand for the empty text, except two stars that exclude the same characters;
    - if n is of unknown size and n' is of unknown size, a wildcard or a negated class, then n is searchable. *)
Definition follows (bytes : bool) (seps : list Z) (n n' : Node) : Prop :=
  (forall e, excluded seps n = Some e -> excluded seps n' = Some e -> length e <= 1)
  /\ (den seps n [] -> den seps n' [] -> star n /\ star n' /\ excluded seps n = excluded seps n')
  /\ (size seps n = None -> size seps n' = None \/ excluded seps n' <> None -> searchable bytes seps n).
Fixpoint row (bytes : bool) (seps : list Z) (ns : list Node) : Prop :=
  match ns with n :: (n' :: _) as rest => follows bytes seps n n' /\ row bytes seps rest | _ => True end.
(** Neighbours fit, and it is not text ** text. *)
Definition fits (bytes : bool) (seps : list Z) (ns : list Node) : Prop := row bytes seps ns /\ forall p q, ~ between seps ns p q.
(** ? and negated classes, alone or alone in an alternative: they stand for no empty text, but the library may accept it. *)
Inductive blunt : Node -> Prop :=
  | bl_leaf n : negative_leaf n -> blunt n
  | bl_group cs n : In (NPattern [n]) cs -> blunt n -> blunt (NAnyOf cs).
(** What alternatives share at the beginning or the end, as one item: nothing, the item shared, or the sequence shared. *)
Definition block (ns : list Node) : list Node := match ns with [] => [] | [n] => [n] | _ => [NPattern ns] end.
Definition sharing (pre post : list Node) (rests : list (list Node)) : list (list Node) := map (fun r => pre ++ r ++ post) rests.
(** Items: the leaves (for arbitrary bytes without ? and negated classes); alternatives that share nothing; alternatives that share a beginning pre or an end post (or both), where
    [pre ; alternatives of the rests ; post] fit as neighbours, and have together the size of the alternatives as written. *)
Inductive item (bytes : bool) (seps : list Z) : Node -> Prop :=
  | it_leaf n : leaf n -> (bytes = true -> ~ negative_leaf n) -> item bytes seps n
  | it_group alts : 2 <= length alts -> unshared alts -> (exists a, In a alts /\ a <> []) ->
      (forall a n, In a alts -> In n a -> item bytes seps n) -> Forall (fits bytes seps) alts -> ordered seps alts ->
      (size seps (group alts) = None -> forall n, In [n] alts -> ~ blunt n) -> item bytes seps (group alts)
  | it_shared pre post rests : pre ++ post <> [] -> ~ In [] rests -> NoDup rests -> unshared rests -> item bytes seps (group rests) ->
      (forall n, In n (pre ++ post) -> item bytes seps n) -> fits bytes seps pre -> fits bytes seps post ->
      row bytes seps (block pre ++ [group rests] ++ block post) ->
      size seps (group (sharing pre post rests)) = total_size (map (size seps) (block pre ++ [group rests] ++ block post)) ->
      item bytes seps (group (sharing pre post rests)).
