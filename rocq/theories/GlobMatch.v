(** * Model of glob/match, glob/util/runes and glob/util/strings.

    Match and Index may crash (slice out of range), so they return an option (None = panic).  The pools of segment slices
    (segments.go) only save allocations: a slice is used by one call at a time and copied before it is kept; they are modelled
    separately (GlobUtil.v). *)
From Coq Require Import String.
From Coq Require Import ZArith Arith List Bool.
From Verif Require Import Utf8 GoStr.
Import ListNotations.
Open Scope nat_scope.

(** ** Strings *)
(** s[a:b]. *)
Definition slice (s : str) (a b : nat) : option str := if (a <=? b) && (b <=? length s) then Some (firstn (b - a) (skipn a s)) else None.
(** strings.Index. *)
Fixpoint Index_ (s sub : str) (i : nat) : option nat :=
  if HasPrefix s sub then Some i else match s with [] => None | _ :: t => Index_ t sub (S i) end.
Definition index_of (s sub : str) : option nat := Index_ s sub 0.
(** strings.LastIndex. *)
Fixpoint last_index (s sub : str) (i : nat) : option nat :=
  match (match s with [] => None | _ :: t => last_index t sub (S i) end) with
  | Some j => Some j
  | None => if HasPrefix s sub then Some i else None
  end.
Definition last_index_of (s sub : str) : option nat := last_index s sub 0.
(** strings.HasSuffix. *)
Definition HasSuffix (s suf : str) : bool := (length suf <=? length s) && eqs (skipn (length s - length suf) s) suf.
(** strings.IndexRune: a byte, the first invalid byte or U+FFFD for RuneError, -1 for other invalid runes, else the encoding. *)
Definition index_rune (s : str) (r : Z) : option nat :=
  if ((0 <=? r) && (r <? 128))%Z then index_of s [r]
  else if (r =? RuneError)%Z then match find (fun ir => (snd ir =? RuneError)%Z) (range_str s) with Some (i, _) => Some i | None => None end
  else if ((r <? 0) || (r >? 1114111) || surrogate r)%Z then None
  else index_of s (encode r).
(** util/strings.IndexAnyRunes (strings.go:8-16): the first position of the first separator, in the order of the separators, that occurs. *)
Fixpoint IndexAnyRunes (s : str) (rs : list Z) : option nat :=
  match rs with [] => None | r :: t => match index_rune s r with Some i => Some i | None => IndexAnyRunes s t end end.
(** util/strings.LastIndexAnyRunes (strings.go:18-39).  The loop for a rune that is not ASCII looks in s, not in sub, so it finds the
    same position until sub is used up: None = the slice sub[i+1:] is out of range. *)
Fixpoint cut_loop (fuel : nat) (n j : nat) : bool :=   (* does the loop end without a crash, with len(sub) = n *)
  match fuel with
  | O => false
  | S f => if n =? 0 then true else if n <? S j then false else cut_loop f (n - S j) j
  end.
Fixpoint LastIndexAnyRunes (s : str) (rs : list Z) : option (option nat) :=
  match rs with
  | [] => Some None
  | r :: t =>
      if ((0 <=? r) && (r <? 128))%Z then match last_index_of s [r] with Some i => Some (Some i) | None => LastIndexAnyRunes s t end
      else match index_rune s r with
           | None => LastIndexAnyRunes s t
           | Some j => if length s =? 0 then LastIndexAnyRunes s t else if cut_loop (S (length s)) (length s) j then Some (Some j) else None
           end
  end.
(** runes.IndexRune(list, r) != -1. *)
Definition inRunes (l : list Z) (r : Z) : bool := existsb (Z.eqb r) l.
(** utf8.RuneLen of a rune read from a string. *)
Definition RuneLen (r : Z) : nat := length (encode r).

(** ** Matchers *)
Inductive Matcher :=
  | MText (s : str) | MAny (seps : list Z) | MSuper | MSingle (seps : list Z) | MList (l : list Z) (not : bool) | MRange (lo hi : Z) (not : bool)
  | MNothing | MMin (n : nat) | MMax (n : nat) | MContains (needle : str) (not : bool)
  | MPrefix (p : str) | MSuffix (s : str) | MPrefixAny (p : str) (seps : list Z) | MSuffixAny (s : str) (seps : list Z) | MPrefixSuffix (p s : str)
  | MAnyOf (ms : list Matcher) | MEveryOf (ms : list Matcher)
  | MBTree (value : Matcher) (left right : option Matcher) (leftLen rightLen len : Z)
  | MRow (ms : list Matcher) (len : Z).
(** The result of Index: -1, or an index and segment lengths. *)
Definition IR := option (nat * list nat).
(** What a matcher does: Len, Match and Index. *)
Record Sem := { sLen : Z; sMatch : str -> option bool; sIndex : str -> option IR }.

(** The runes of s with their positions and the end (any.go:32-37 and others). *)
Definition all_segments (s : str) : list nat := map fst (range_str s) ++ [length s].
(** single.go:32-40, list.go:33-41, range.go:32-40: the first rune passing the test. *)
Definition first_rune (p : Z -> bool) (s : str) : IR :=
  match find (fun ir => p (snd ir)) (range_str s) with Some (i, r) => Some (i, [RuneLen r]) | None => None end.
(** Match of Single, List and Range (single.go:19-26, list.go:19-27, range.go:21-30). *)
Definition one_rune (p : Z -> bool) (s : str) : bool := let '(r, w) := decode s in if w <? length s then false else p r.
(** appendMerge (match.go:33-72) on lists. *)
Fixpoint merge (t : list nat) : list nat -> list nat :=
  fix go (s : list nat) : list nat :=
    match t, s with
    | [], _ => s
    | _, [] => t
    | x :: t', y :: s' => if x =? y then x :: merge t' s' else if x <? y then x :: merge t' s else y :: go s'
    end.
Definition appendMerge (target sub : list nat) : list nat := merge target sub.

(** AnyOf (any_of.go:18-26, 28-58, 60-78). *)
Fixpoint any_match (ms : list Sem) (s : str) : option bool :=
  match ms with
  | [] => Some false
  | m :: t => match sMatch m s with None => None | Some true => Some true | Some false => any_match t s end
  end.
Fixpoint any_index (ms : list Sem) (s : str) (acc : IR) : option IR :=
  match ms with
  | [] => Some acc
  | m :: t =>
      match sIndex m s with
      | None => None
      | Some None => any_index t s acc
      | Some (Some (i, seg)) =>
          match acc with
          | None => any_index t s (Some (i, seg))
          | Some (i0, seg0) => if i <? i0 then any_index t s (Some (i, seg)) else if i0 <? i then any_index t s acc else any_index t s (Some (i0, appendMerge seg0 seg))
          end
      end
  end.
Fixpoint any_len (l : Z) (ms : list Sem) : Z :=
  match ms with
  | [] => l
  | m :: t => if (l =? -1)%Z then any_len (sLen m) t else if (sLen m =? -1)%Z then (-1)%Z else if (l =? sLen m)%Z then any_len l t else (-1)%Z
  end.
(** EveryOf (every_of.go:20-30, 32-85, 87-95); indices are ints, delta may be negative. *)
Definition every_len (ms : list Sem) : Z := match ms with [] => 0%Z | _ => (-1)%Z end.
Fixpoint every_match (ms : list Sem) (s : str) : option bool :=
  match ms with
  | [] => Some true
  | m :: t => match sMatch m s with None => None | Some false => Some false | Some true => every_match t s end
  end.
Fixpoint every_index (first : bool) (ms : list Sem) (s sub : str) (index offset : nat) (current : list nat) : option IR :=
  match ms with
  | [] => Some (Some (index, current))
  | m :: t =>
      match sIndex m sub with
      | None => None
      | Some None => Some None
      | Some (Some (idx, seg)) =>
          let next := if first then seg
                      else flat_map (fun ex => filter (fun n => (Z.of_nat ex + (Z.of_nat index - Z.of_nat (idx + offset)) =? Z.of_nat n)%Z) seg) current in
          if negb first && (length next =? 0) then Some None
          else match slice s (idx + offset) (length s) with
               | None => None
               | Some sub' => every_index false t s sub' (idx + offset) (offset + idx) next
               end
      end
  end.
(** Row (row.go:21-42, 44-53, 55-57, 63-73). *)
(** The scan for a member's text: the position of the last rune looked at and how many (for next = range s[idx:]). *)
Fixpoint row_scan (rs : list (nat * Z)) (len : Z) (i : nat) (next : nat) : nat * nat :=
  match rs with
  | [] => (next, i)
  | (p, _) :: t => if (Z.of_nat (S i) =? len)%Z then (p, S i) else row_scan t len (S i) p
  end.
Fixpoint row_all (ms : list Sem) (s : str) (idx : nat) : option bool :=
  match ms with
  | [] => Some true
  | m :: t =>
      match slice s idx (length s) with
      | None => None
      | Some rest =>
          let '(next, i) := row_scan (range_str rest) (sLen m) 0 0 in
          if (Z.of_nat i <? sLen m)%Z then Some false
          else match slice s idx (idx + next + 1) with
               | None => None
               | Some part => match sMatch m part with None => None | Some false => Some false | Some true => row_all t s (idx + next + 1) end
               end
      end
  end.
Definition row_match (ms : list Sem) (len : Z) (s : str) : option bool :=
  if (Z.of_nat (length (range_str s)) =? len)%Z then row_all ms s 0 else Some false.
Fixpoint row_index (ms : list Sem) (len : Z) (s : str) (ps : list nat) : option IR :=
  match ps with
  | [] => Some None
  | i :: t =>
      let rest := skipn i s in
      if (Z.of_nat (length rest) <? len)%Z then Some None
      else match row_all ms rest 0 with
           | None => None
           | Some true => Some (Some (i, [Z.to_nat len]))
           | Some false => row_index ms len s t
           end
  end.
(** BTree.Match (btree.go:95-150) and offsetLimit (btree.go:152-168). *)
Definition opt_match (m : option Sem) (s : str) : option bool := match m with Some m => sMatch m s | None => Some (eqs s []) end.
Fixpoint try_right (right : option Sem) (s : str) (at_ : nat) (segs : list nat) : option bool :=   (* segs: longest first *)
  match segs with
  | [] => Some false
  | len :: t =>
      let r := if length s <=? at_ + len then [] else skipn (at_ + len) s in
      match opt_match right r with None => None | Some true => Some true | Some false => try_right right s at_ t end
  end.
Fixpoint btree_loop (fuel : nat) (value : Sem) (left right : option Sem) (s : str) (offset limit : Z) : option bool :=
  match fuel with
  | O => None
  | S f =>
      if (offset <? limit)%Z then
        match slice s (Z.to_nat offset) (Z.to_nat limit) with
        | None => None
        | Some mid =>
            match sIndex value mid with
            | None => None
            | Some None => Some false
            | Some (Some (i, segs)) =>
                let at_ := Z.to_nat offset + i in
                if length s <? at_ then None
                else match opt_match left (firstn at_ s) with
                     | None => None
                     | Some l =>
                         match (if l then try_right right s at_ (rev segs) else Some false) with
                         | None => None
                         | Some true => Some true
                         | Some false => btree_loop f value left right s (offset + Z.of_nat (i + snd (decode (skipn at_ s))))%Z limit
                         end
                     end
            end
        end
      else Some false
  end.
Definition offset_limit (leftLen rightLen len : Z) (n : nat) : Z * Z :=
  if negb (len =? -1)%Z && (Z.of_nat n <? len)%Z then (0, 0)%Z
  else ((if (0 <=? leftLen)%Z then leftLen else 0)%Z, (if (0 <=? rightLen)%Z then Z.of_nat n - rightLen else Z.of_nat n)%Z).
Definition btree_match (value : Sem) (left right : option Sem) (leftLen rightLen len : Z) (s : str) : option bool :=
  let '(offset, limit) := offset_limit leftLen rightLen len (length s) in
  btree_loop (S (length s)) value left right s offset limit.
(** PrefixSuffix.Index (prefix_suffix.go:16-50): the ends of the suffixes, found from the right, then reversed. *)
Fixpoint suffix_ends (fuel : nat) (sub suf : str) : list nat :=
  match fuel with
  | O => []
  | S f => match last_index_of sub suf with None => [] | Some i => suffix_ends f (firstn i sub) suf ++ [i + length suf] end
  end.

Definition no : Z := (-1)%Z.
(** Len, Match and Index of every matcher (the files of glob/match). *)
Fixpoint sem (m : Matcher) : Sem :=
  match m with
  | MText t =>  (* text.go: Len 30-32, Match 26-28, Index 34-41 *)
      {| sLen := Z.of_nat (length (range_str t)); sMatch := fun s => Some (eqs t s);
         sIndex := fun s => Some (match index_of s t with Some i => Some (i, [length t]) | None => None end) |}
  | MAny seps =>  (* any.go: Len 40-42, Match 17-19, Index 21-38 *)
      {| sLen := no; sMatch := fun s => Some (match IndexAnyRunes s seps with None => true | Some _ => false end);
         sIndex := fun s => Some (match IndexAnyRunes s seps with
                                  | None => Some (0, all_segments s)
                                  | Some O => Some (0, [0])
                                  | Some found => Some (0, all_segments (firstn found s))
                                  end) |}
  | MSuper => {| sLen := no; sMatch := fun _ => Some true; sIndex := fun s => Some (Some (0, all_segments s)) |}  (* super.go: Len 17-19, Match 13-15, Index 21-29 *)
  | MSingle seps =>  (* single.go: Len 28-30, Match 19-26, Index 32-40 *)
      {| sLen := 1; sMatch := fun s => Some (one_rune (fun r => negb (inRunes seps r)) s); sIndex := fun s => Some (first_rune (fun r => negb (inRunes seps r)) s) |}
  | MList l not =>  (* list.go: Len 29-31, Match 19-27, Index 33-41 *)
      {| sLen := 1; sMatch := fun s => Some (one_rune (fun r => Bool.eqb (inRunes l r) (negb not)) s); sIndex := fun s => Some (first_rune (fun r => Bool.eqb not (negb (inRunes l r))) s) |}
  | MRange lo hi not =>  (* range.go: Len 17-19, Match 21-30, Index 32-40 *)
      {| sLen := 1; sMatch := fun s => Some (one_rune (fun r => Bool.eqb ((lo <=? r) && (r <=? hi))%Z (negb not)) s);
         sIndex := fun s => Some (first_rune (fun r => negb (Bool.eqb not ((lo <=? r) && (r <=? hi))%Z)) s) |}
  | MNothing => {| sLen := 0; sMatch := fun s => Some (eqs s []); sIndex := fun _ => Some (Some (0, [0])) |}  (* nothing.go: Len 21-23, Match 13-15, Index 17-19 *)
  | MMin n =>  (* min.go: Len 51-53, Match 16-26, Index 28-49; Match needs a rune even for 0 *)
      {| sLen := no; sMatch := fun s => Some ((0 <? length (range_str s)) && (n <=? length (range_str s)));
         sIndex := fun s => Some (if (Z.of_nat (length s) - Z.of_nat n + 1 <=? 0)%Z then None
                                  else match map (fun ir => fst ir + RuneLen (snd ir)) (skipn (n - 1) (range_str s)) with [] => None | segs => Some (0, segs) end) |}
  | MMax n =>  (* max.go: Len 43-45, Match 16-26, Index 28-41 *)
      {| sLen := no; sMatch := fun s => Some (length (range_str s) <=? n);
         sIndex := fun s => Some (Some (0, 0 :: map (fun ir => fst ir + RuneLen (snd ir)) (firstn n (range_str s)))) |}
  | MContains needle not =>  (* contains.go: Len 48-50, Match 17-19, Index 21-46 *)
      {| sLen := no; sMatch := fun s => Some (negb (Bool.eqb (match index_of s needle with Some _ => true | None => false end) not));
         sIndex := fun s => Some (
           match index_of s needle with
           | None => if not then Some (0, all_segments s) else None
           | Some i =>
               if not then Some (0, all_segments (firstn i s))
               else let offset := i + length needle in
                    if length s <=? offset then Some (0, [offset]) else Some (0, map (Nat.add offset) (all_segments (skipn offset s)))
           end) |}
  | MPrefix p =>  (* prefix.go: Len 40-42, Match 44-46, Index 17-38 *)
      {| sLen := no; sMatch := fun s => Some (HasPrefix s p);
         sIndex := fun s => Some (match index_of s p with
                                  | None => None
                                  | Some i => Some (i, length p :: map (fun ir => length p + fst ir + RuneLen (snd ir)) (range_str (skipn (i + length p) s)))
                                  end) |}
  | MSuffix suf =>  (* suffix.go: Len 16-18, Match 20-22, Index 24-31 *)
      {| sLen := no; sMatch := fun s => Some (HasSuffix s suf);
         sIndex := fun s => Some (match index_of s suf with None => None | Some i => Some (0, [i + length suf]) end) |}
  | MPrefixAny p seps =>  (* prefix_any.go: Len 42-44, Match 46-51, Index 20-40 *)
      {| sLen := no;
         sMatch := fun s => Some (HasPrefix s p && match IndexAnyRunes (skipn (length p) s) seps with None => true | Some _ => false end);
         sIndex := fun s => Some (match index_of s p with
                                  | None => None
                                  | Some i =>
                                      let sub := skipn (i + length p) s in
                                      let sub := match IndexAnyRunes sub seps with Some k => firstn k sub | None => sub end in
                                      Some (i, length p :: map (fun ir => length p + fst ir + RuneLen (snd ir)) (range_str sub))
                                  end) |}
  | MSuffixAny suf seps =>  (* suffix_any.go: Len 30-32, Match 34-39, Index 19-28 *)
      {| sLen := no;
         sMatch := fun s => Some (HasSuffix s suf && match IndexAnyRunes (firstn (length s - length suf) s) seps with None => true | Some _ => false end);
         sIndex := fun s => match index_of s suf with
                            | None => Some None
                            | Some idx => match LastIndexAnyRunes (firstn idx s) seps with
                                          | None => None
                                          | Some l => let i := match l with Some j => S j | None => 0 end in Some (Some (i, [idx + length suf - i]))
                                          end
                            end |}
  | MPrefixSuffix p suf =>  (* prefix_suffix.go: Len 52-54, Match 56-58, Index 16-50 *)
      {| sLen := no; sMatch := fun s => Some (HasPrefix s p && HasSuffix s suf);
         sIndex := fun s => Some (match index_of s p with
                                  | None => None
                                  | Some i =>
                                      if length suf =? 0 then Some (i, [length s - i])
                                      else match suffix_ends (S (length s)) (skipn i s) suf with [] => None | segs => Some (i, segs) end
                                  end) |}
  | MAnyOf ms => let ss := map sem ms in {| sLen := any_len no ss; sMatch := any_match ss; sIndex := fun s => any_index ss s None |}
  | MEveryOf ms => let ss := map sem ms in {| sLen := every_len ss; sMatch := every_match ss; sIndex := fun s => every_index true ss s s 0 0 [] |}
  | MBTree v l r ll rl len =>  (* btree.go: Len 49-51, Match 95-150, Index 53-93 (always -1) *)
      {| sLen := len; sMatch := btree_match (sem v) (match l with Some l => Some (sem l) | None => None end) (match r with Some r => Some (sem r) | None => None end) ll rl len;
         sIndex := fun _ => Some None |}
  | MRow ms len => let ss := map sem ms in {| sLen := len; sMatch := row_match ss len; sIndex := fun s => row_index ss len s (map fst (range_str s)) |}
  end.
Definition Len (m : Matcher) : Z := sLen (sem m).
Definition Match (m : Matcher) (s : str) : option bool := sMatch (sem m) s.
Definition Index (m : Matcher) (s : str) : option IR := sIndex (sem m) s.
(** NewBTree (btree.go:18-47). *)
Definition NewBTree (value : Matcher) (left right : option Matcher) : Matcher :=
  let ll := match left with Some l => Len l | None => 0%Z end in
  let rl := match right with Some r => Len r | None => 0%Z end in
  let ok := negb (Len value =? -1)%Z && negb (ll =? -1)%Z && negb (rl =? -1)%Z in
  MBTree value left right ll rl (if ok then ll + Len value + rl else -1)%Z.
