(** * Model of glob/match with its memory: slices, the pools of segment buffers, and matches running at the same time.

    GlobMatch.v models Index with lists.  Here Index and Match are programs on a shared memory of int arrays; every access to the memory is a
    step, and the steps of different matches may interleave in any way.  Strings are immutable values.  Not modelled: the Go memory model's
    reorderings (C69_race_free shows there are no races for them to matter), reclaiming arrays nobody refers to. *)
From Coq Require Import String.
From Coq Require Import ZArith Arith List Bool.
From Verif Require Import Utf8 GoStr GlobMatch GlobUtil.
Import ListNotations.
Open Scope nat_scope.

(** ** Arrays and slices
    The arrays: segments0..segments4 (segments.go:33-47) and those in the field Segments of Text and Row (text.go:22, row.go:17) hold one int and
    exist from the beginning; equal ones are one array here, which can only mean more sharing.  The others are made while matching. *)
Inductive bid := Static (n : nat) | Dyn (k : nat).
(** A slice: nil, or the first len ints of an array (every slice of the package starts at the beginning of its array). *)
Inductive Slice := Nil | Sl (b : bid) (len : nat).
Definition cut (s : Slice) : Slice := match s with Nil => Nil | Sl b _ => Sl b 0 end.           (* s[:0] *)
Definition slen (s : Slice) : nat := match s with Nil => 0 | Sl _ n => n end.

(** ** Programs *)
Inductive prog (A : Type) :=
  | Ret (a : A)
  | Panic
  | Alloc (init : list nat) (k : bid -> prog A)       (* make, or append growing: an array that begins with init, as large as the runtime likes *)
  | Get (pool : Z) (k : bid -> prog A)                (* segmentsPools[pool].Get() *)
  | Put (pool : Z) (b : bid) (k : prog A)             (* segmentsPools[pool].Put *)
  | Cap (b : bid) (k : nat -> prog A)                 (* cap *)
  | Read (b : bid) (i : nat) (k : nat -> prog A)
  | Write (b : bid) (i v : nat) (k : prog A).
Arguments Ret {A}. Arguments Panic {A}. Arguments Alloc {A}. Arguments Get {A}. Arguments Put {A}. Arguments Cap {A}. Arguments Read {A}. Arguments Write {A}.
Fixpoint bind {A B} (p : prog A) (f : A -> prog B) : prog B :=
  match p with
  | Ret a => f a
  | Panic => Panic
  | Alloc i k => Alloc i (fun b => bind (k b) f)
  | Get i k => Get i (fun b => bind (k b) f)
  | Put i b k => Put i b (bind k f)
  | Cap b k => Cap b (fun n => bind (k n) f)
  | Read b i k => Read b i (fun v => bind (k v) f)
  | Write b i v k => Write b i v (bind k f)
  end.
Declare Scope prog_scope.
Notation "x <- p ;; q" := (bind p (fun x => q)) (at level 90, p at level 89, right associativity) : prog_scope.
Notation "p ;;; q" := (bind p (fun _ => q)) (at level 90, right associativity) : prog_scope.
Open Scope prog_scope.

(** ** Running *)
(** The memory and what lies in the pools. *)
Record Store := { arrays : bid -> option (list nat); pools : list (Z * bid) }.
Definition bid_eq (a b : bid) : {a = b} + {a <> b}.
Proof. decide equality; apply Nat.eq_dec. Defined.
Definition put_array (m : Store) (b : bid) (a : list nat) : Store := {| arrays := fun x => if bid_eq x b then Some a else arrays m x; pools := pools m |}.
Definition with_pools (m : Store) (ps : list (Z * bid)) : Store := {| arrays := arrays m; pools := ps |}.
(** One step.  sync.Pool: Get removes and returns some element, or calls New (pools forget elements whenever they like); a pool without New
    that has nothing to give returns nil, on which the type assertion panics. *)
Inductive step {A} : Store -> prog A -> Store -> prog A -> Prop :=
  | st_alloc m init k i rest : arrays m (Dyn i) = None -> step m (Alloc init k) (put_array m (Dyn i) (init ++ rest)) (k (Dyn i))
  | st_get m pool k b before after : pools m = before ++ (pool, b) :: after -> step m (Get pool k) (with_pools m (before ++ after)) (k b)
  | st_new m pool k i : In pool initialised -> arrays m (Dyn i) = None -> step m (Get pool k) (put_array m (Dyn i) (repeat 0 (Z.to_nat (pool + 1)))) (k (Dyn i))
  | st_nil m pool k : ~ In pool initialised -> step m (Get pool k) m Panic
  | st_put m pool b k : step m (Put pool b k) (with_pools m ((pool, b) :: pools m)) k
  | st_cap m b k a : arrays m b = Some a -> step m (Cap b k) m (k (length a))
  | st_read m b i k a v : arrays m b = Some a -> nth_error a i = Some v -> step m (Read b i k) m (k v)
  | st_read_out m b i k a : arrays m b = Some a -> nth_error a i = None -> step m (Read b i k) m Panic
  | st_write m b i v k a : arrays m b = Some a -> i < length a -> step m (Write b i v k) (put_array m b (upd a i v)) k
  | st_write_out m b i v k a : arrays m b = Some a -> length a <= i -> step m (Write b i v k) m Panic.
(** Any number of programs at the same time. *)
Inductive steps {A} : Store * list (prog A) -> Store * list (prog A) -> Prop :=
  | ss_one m m' before p p' after : step m p m' p' -> steps (m, before ++ p :: after) (m', before ++ p' :: after).
Inductive reaches {A} (c : Store * list (prog A)) : Store * list (prog A) -> Prop :=
  | rs_here : reaches c c
  | rs_step c1 c2 : reaches c c1 -> steps c1 c2 -> reaches c c2.
(** When the program starts: nothing but the fixed arrays, nothing in the pools. *)
Definition fresh_store : Store := {| arrays := fun b => match b with Static n => Some [n] | Dyn _ => None end; pools := [] |}.

(** ** Slices *)
(** acquireSegments (segments.go:71-79). *)
Definition acquire (c : Z) : prog Slice :=
  match acquireSegments c with
  | None => Panic
  | Some (Fresh n) => Alloc (repeat 0 (Z.to_nat n)) (fun b => Ret (Sl b 0))
  | Some (Pooled i) => Get i (fun b => Ret (Sl b 0))
  end.
(** releaseSegments (segments.go:81-91); cap(nil) is 0. *)
Definition release (s : Slice) : prog unit :=
  match s with
  | Nil => Ret tt
  | Sl b _ => Cap b (fun c => match releaseSegments (Z.of_nat c) with None => Panic | Some None => Ret tt | Some (Some i) => Put i b (Ret tt) end)
  end.
(** for _, x := range s: the elements are read one by one, the length once. *)
Fixpoint for_from {T} (b : bid) (i n : nat) (body : T -> nat -> prog T) (acc : T) : prog T :=
  match n with O => Ret acc | S n' => Read b i (fun v => acc' <- body acc v ;; for_from b (S i) n' body acc') end.
Definition for_slice {T} (s : Slice) (body : T -> nat -> prog T) (acc : T) : prog T := match s with Nil => Ret acc | Sl b n => for_from b 0 n body acc end.
(** The ints of a slice (append copies them all before it writes: memmove). *)
Definition contents (s : Slice) : prog (list nat) := for_slice s (fun acc v => Ret (acc ++ [v])) [].
Fixpoint write_from (b : bid) (i : nat) (vs : list nat) : prog unit := match vs with [] => Ret tt | v :: t => Write b i v (write_from b (S i) t) end.
(** append(s, vs...): in place if the capacity allows, otherwise into a new array. *)
Definition append (s : Slice) (vs : list nat) : prog Slice :=
  match s with
  | Nil => if length vs =? 0 then Ret Nil else Alloc vs (fun b => Ret (Sl b (length vs)))
  | Sl b n => Cap b (fun c => if n + length vs <=? c then write_from b n vs ;;; Ret (Sl b (n + length vs))
                              else old <- contents s ;; Alloc (old ++ vs) (fun b' => Ret (Sl b' (n + length vs))))
  end.
(** A loop that appends one int after the other. *)
Fixpoint append_each (s : Slice) (vs : list nat) : prog Slice := match vs with [] => Ret s | v :: t => s' <- append s [v] ;; append_each s' t end.
(** []int{v} *)
Definition one (v : nat) : prog Slice := Alloc [v] (fun b => Ret (Sl b 1)).
(** appendMerge (match.go:33-72); out is made, filled and read by this call only. *)
Definition append_merge (target sub : Slice) : prog Slice := t <- contents target ;; s <- contents sub ;; append (cut target) (merge t s).
(** reverseSegments (match.go:74-81): input[i], input[l-i-1] = input[l-i-1], input[i]. *)
Fixpoint reverse_loop (b : bid) (l n i : nat) : prog unit :=
  match n with O => Ret tt | S n' => Read b (l - i - 1) (fun y => Read b i (fun x => Write b i y (Write b (l - i - 1) x (reverse_loop b l n' (S i))))) end.
Definition reverse (s : Slice) : prog unit := match s with Nil => Ret tt | Sl b n => reverse_loop b n (n / 2) 0 end.

(** ** Matchers *)
(** Index: -1, or an index and segments. *)
Record MSem := { mLen : Z; mMatch : str -> prog bool; mIndex : str -> prog (option (nat * Slice)) }.
(** AnyOf (any_of.go:18-58). *)
Fixpoint m_any_match (ms : list MSem) (s : str) : prog bool := match ms with [] => Ret false | m :: t => b <- mMatch m s ;; if b : bool then Ret true else m_any_match t s end.
Fixpoint m_any_loop (ms : list MSem) (s : str) (index : option nat) (segments : Slice) : prog (option (nat * Slice)) :=
  match ms with
  | [] => match index with None => release segments ;;; Ret None | Some i => Ret (Some (i, segments)) end
  | m :: t =>
      r <- mIndex m s ;;
      match r with
      | None => m_any_loop t s index segments
      | Some (idx, seg) =>
          let take := vs <- contents seg ;; segments' <- append (cut segments) vs ;; m_any_loop t s (Some idx) segments' in
          match index with
          | None => take
          | Some i => if idx <? i then take else if i <? idx then m_any_loop t s index segments else segments' <- append_merge segments seg ;; m_any_loop t s index segments'
          end
      end
  end.
Definition m_any_index (ms : list MSem) (s : str) : prog (option (nat * Slice)) := segments <- acquire (Z.of_nat (length s)) ;; m_any_loop ms s None segments.
(** EveryOf (every_of.go:32-95). *)
Fixpoint m_every_match (ms : list MSem) (s : str) : prog bool := match ms with [] => Ret true | m :: t => b <- mMatch m s ;; if b : bool then m_every_match t s else Ret false end.
Fixpoint m_every_loop (first : bool) (ms : list MSem) (s sub : str) (index offset : nat) (next current : Slice) : prog (option (nat * Slice)) :=
  match ms with
  | [] => release next ;;; Ret (Some (index, current))
  | m :: t =>
      r <- mIndex m sub ;;
      match r with
      | None => release next ;;; release current ;;; Ret None
      | Some (idx, seg) =>
          let go next current := match slice s (idx + offset) (length s) with None => Panic | Some sub' => m_every_loop false t s sub' (idx + offset) (offset + idx) next current end in
          if first then vs <- contents seg ;; current' <- append current vs ;; go next current'
          else next' <- for_slice current (fun nx ex => for_slice seg (fun nx n => if (Z.of_nat ex + (Z.of_nat index - Z.of_nat (idx + offset)) =? Z.of_nat n)%Z then append nx [n] else Ret nx) nx) (cut next) ;;
               if slen next' =? 0 then release next' ;;; release current ;;; Ret None
               else vs <- contents next' ;; current' <- append (cut current) vs ;; go next' current'
      end
  end.
Definition m_every_index (ms : list MSem) (s : str) : prog (option (nat * Slice)) :=
  next <- acquire (Z.of_nat (length s)) ;; current <- acquire (Z.of_nat (length s)) ;; m_every_loop true ms s s 0 0 next current.
(** Row (row.go:21-73). *)
Fixpoint m_row_all (ms : list MSem) (s : str) (idx : nat) : prog bool :=
  match ms with
  | [] => Ret true
  | m :: t =>
      match slice s idx (length s) with
      | None => Panic
      | Some rest =>
          let '(next, i) := row_scan (range_str rest) (mLen m) 0 0 in
          if (Z.of_nat i <? mLen m)%Z then Ret false
          else match slice s idx (idx + next + 1) with
               | None => Panic
               | Some part => b <- mMatch m part ;; if b : bool then m_row_all t s (idx + next + 1) else Ret false
               end
      end
  end.
Fixpoint m_row_index (ms : list MSem) (len : Z) (s : str) (ps : list nat) : prog (option (nat * Slice)) :=
  match ps with
  | [] => Ret None
  | i :: t =>
      let rest := skipn i s in
      if (Z.of_nat (length rest) <? len)%Z then Ret None
      else b <- m_row_all ms rest 0 ;; if b : bool then Ret (Some (i, Sl (Static (Z.to_nat len)) 1)) else m_row_index ms len s t
  end.
(** BTree.Match (btree.go:95-150). *)
Definition m_opt_match (m : option MSem) (s : str) : prog bool := match m with Some m => mMatch m s | None => Ret (eqs s []) end.
(** for i := len(segments) - 1; i >= 0; i-- (btree.go:118-140), without the return. *)
Fixpoint m_try_right (right : option MSem) (s : str) (at_ : nat) (b : bid) (n : nat) : prog bool :=
  match n with
  | O => Ret false
  | S i => Read b i (fun len => ok <- m_opt_match right (if length s <=? at_ + len then [] else skipn (at_ + len) s) ;; if ok : bool then Ret true else m_try_right right s at_ b i)
  end.
Fixpoint m_btree_loop (fuel : nat) (value : MSem) (left right : option MSem) (s : str) (offset limit : Z) : prog bool :=
  match fuel with
  | O => Panic
  | S f =>
      if (offset <? limit)%Z then
        match slice s (Z.to_nat offset) (Z.to_nat limit) with
        | None => Panic
        | Some mid =>
            r <- mIndex value mid ;;
            match r with
            | None => Ret false                                                         (* releaseSegments(nil) *)
            | Some (i, segments) =>
                let at_ := Z.to_nat offset + i in
                if length s <? at_ then Panic
                else l <- m_opt_match left (firstn at_ s) ;;
                     ok <- (if l : bool then match segments with Nil => Ret false | Sl b n => m_try_right right s at_ b n end else Ret false) ;;
                     if ok : bool then release segments ;;; Ret true
                     else release segments ;;; m_btree_loop f value left right s (offset + Z.of_nat (i + snd (decode (skipn at_ s))))%Z limit
            end
        end
      else Ret false
  end.
Definition m_btree_match (value : MSem) (left right : option MSem) (leftLen rightLen len : Z) (s : str) : prog bool :=
  let '(offset, limit) := offset_limit leftLen rightLen len (length s) in
  m_btree_loop (S (length s)) value left right s offset limit.
(** The positions of the runes of s and its end, each plus d, appended to an acquired slice (any.go:31-37, super.go:22-28, contains.go:40-45). *)
Definition m_all_segments (c : Z) (d : nat) (s : str) : prog (option (nat * Slice)) :=
  segments <- acquire c ;; segments <- append_each segments (map (fun ir => d + fst ir) (range_str s)) ;; segments <- append segments [d + length s] ;; Ret (Some (0, segments)).
(** A text's length and the ends of the runes after it (prefix.go:31-37, prefix_any.go:33-39). *)
Definition m_prefix_segments (i n : nat) (sub : str) : prog (option (nat * Slice)) :=
  segments <- acquire (Z.of_nat (length sub) + 1) ;; segments <- append segments [n] ;;
  segments <- append_each segments (map (fun ir => n + fst ir + RuneLen (snd ir)) (range_str sub)) ;; Ret (Some (i, segments)).
(** The loop of PrefixSuffix.Index (prefix_suffix.go:32-40). *)
Fixpoint m_suffix_ends (fuel : nat) (sub suf : str) (segments : Slice) : prog Slice :=
  match fuel with
  | O => Ret segments
  | S f => match last_index_of sub suf with None => Ret segments | Some i => segments' <- append segments [i + length suf] ;; m_suffix_ends f (firstn i sub) suf segments' end
  end.
(** The first rune passing the test, with one of the five fixed slices (single.go:32-40, list.go:33-41, range.go:32-40). *)
Definition m_first_rune (p : Z -> bool) (s : str) : prog (option (nat * Slice)) :=
  Ret (match find (fun ir => p (snd ir)) (range_str s) with Some (i, r) => Some (i, Sl (Static (RuneLen r)) 1) | None => None end).
Definition pure {A} (o : option A) : prog A := match o with Some a => Ret a | None => Panic end.
(** Len, Match and Index of every matcher. *)
Fixpoint msem (m : Matcher) : MSem :=
  let leaf index := {| mLen := Len m; mMatch := fun s => pure (Match m s); mIndex := index |} in     (* Match of these uses no memory *)
  match m with
  | MText t => leaf (fun s => Ret (match index_of s t with Some i => Some (i, Sl (Static (length t)) 1) | None => None end))
  | MAny seps => leaf (fun s => match IndexAnyRunes s seps with
                                | None => m_all_segments (Z.of_nat (length s)) 0 s
                                | Some O => Ret (Some (0, Sl (Static 0) 1))
                                | Some found => m_all_segments (Z.of_nat (length (firstn found s))) 0 (firstn found s)
                                end)
  | MSuper => leaf (fun s => m_all_segments (Z.of_nat (length s) + 1) 0 s)
  | MSingle seps => leaf (m_first_rune (fun r => negb (inRunes seps r)))
  | MList l not => leaf (m_first_rune (fun r => Bool.eqb not (negb (inRunes l r))))
  | MRange lo hi not => leaf (m_first_rune (fun r => negb (Bool.eqb not ((lo <=? r) && (r <=? hi))%Z)))
  | MNothing => leaf (fun _ => Ret (Some (0, Sl (Static 0) 1)))
  | MMin n => leaf (fun s => let c := (Z.of_nat (length s) - Z.of_nat n + 1)%Z in
                             if (c <=? 0)%Z then Ret None
                             else segments <- acquire c ;; segments <- append_each segments (map (fun ir => fst ir + RuneLen (snd ir)) (skipn (n - 1) (range_str s))) ;;
                                  Ret (if slen segments =? 0 then None else Some (0, segments)))
  | MMax n => leaf (fun s => segments <- acquire (Z.of_nat n + 1) ;; segments <- append segments [0] ;;
                             segments <- append_each segments (map (fun ir => fst ir + RuneLen (snd ir)) (firstn n (range_str s))) ;; Ret (Some (0, segments)))
  | MContains needle not => leaf (fun s =>
      match index_of s needle with
      | None => if not then m_all_segments (Z.of_nat (length s) + 1) 0 s else Ret None
      | Some i => if not then m_all_segments (Z.of_nat (length (firstn i s)) + 1) 0 (firstn i s)
                  else let offset := i + length needle in
                       if length s <=? offset then segments <- one offset ;; Ret (Some (0, segments))
                       else m_all_segments (Z.of_nat (length (skipn offset s)) + 1) offset (skipn offset s)
      end)
  | MPrefix p => leaf (fun s => match index_of s p with None => Ret None | Some i => m_prefix_segments i (length p) (skipn (i + length p) s) end)
  | MSuffix suf => leaf (fun s => match index_of s suf with None => Ret None | Some i => segments <- one (i + length suf) ;; Ret (Some (0, segments)) end)
  | MPrefixAny p seps => leaf (fun s => match index_of s p with
                                        | None => Ret None
                                        | Some i => let sub := skipn (i + length p) s in
                                                    m_prefix_segments i (length p) (match IndexAnyRunes sub seps with Some k => firstn k sub | None => sub end)
                                        end)
  | MSuffixAny suf seps => leaf (fun s => match index_of s suf with
                                          | None => Ret None
                                          | Some idx => match LastIndexAnyRunes (firstn idx s) seps with
                                                        | None => Panic
                                                        | Some l => let i := match l with Some j => S j | None => 0 end in segments <- one (idx + length suf - i) ;; Ret (Some (i, segments))
                                                        end
                                          end)
  | MPrefixSuffix p suf => leaf (fun s => match index_of s p with
                                          | None => Ret None
                                          | Some i =>
                                              if length suf =? 0 then segments <- one (length s - i) ;; Ret (Some (i, segments))
                                              else if length s - i =? 0 then Ret None
                                              else segments <- acquire (Z.of_nat (length s - i)) ;; segments <- m_suffix_ends (S (length s)) (skipn i s) suf segments ;;
                                                   if slen segments =? 0 then release segments ;;; Ret None else reverse segments ;;; Ret (Some (i, segments))
                                          end)
  | MAnyOf ms => let ss := map msem ms in {| mLen := Len m; mMatch := m_any_match ss; mIndex := m_any_index ss |}
  | MEveryOf ms => let ss := map msem ms in {| mLen := Len m; mMatch := m_every_match ss; mIndex := m_every_index ss |}
  | MBTree v l r ll rl len =>
      {| mLen := len; mMatch := m_btree_match (msem v) (match l with Some l => Some (msem l) | None => None end) (match r with Some r => Some (msem r) | None => None end) ll rl len;
         mIndex := fun _ => Ret None |}
  | MRow ms len =>
      let ss := map msem ms in
      {| mLen := len; mMatch := fun s => if (Z.of_nat (length (range_str s)) =? len)%Z then m_row_all ss s 0 else Ret false;
         mIndex := fun s => m_row_index ss len s (map fst (range_str s)) |}
  end.
(** A match: g.Match(s). *)
Definition matching (m : Matcher) (s : str) : prog bool := mMatch (msem m) s.
