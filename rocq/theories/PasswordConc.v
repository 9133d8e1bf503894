(** * Generate (password/generate.go:122-210) run by several goroutines.

    The comment on Generate (generate.go:128-129) says that it is safe for concurrent use.  The
    Generator's fields are only read; what the calls share is the reader, from which every call draws
    through crypto/rand.Int, and that through io.ReadFull: the k bytes of one draw may come in
    several Reads, between which other calls may read.  A call is cut into the steps between which
    the other goroutines can be seen: its Reads and (one by one as well, though nothing shared is
    touched) the iterations that need no random byte.
    Simplified: one call that is refused or finished by its own arithmetic ends in one step; the
    order of memory accesses between Reads is irrelevant because nothing else is shared. *)
From Coq Require Import ZArith List Bool Arith.
From Verif Require Import PasswordModel.
Import ListNotations.
Open Scope Z_scope.

(** The parameters of a call (generate.go:130), with the generator it is made on. *)
Record call := { gen : Generator; len : Z; numDigits : Z; numSymbols : Z; noUpper : bool; allowRepeat : bool }.

(** What a call ends with. *)
Inductive outcome := Password (s : list Z) | Failed (e : gerror) | Panicked.

(** Where a call is: returned; about to call randomElement (generate.go:157, 175, 193); about to call
    randomInsert with the character ch (generate.go:167, 185, 203).  [todo] = iterations of this loop
    after the present one, [set] = what this loop draws from, [next] = the loops after it, [res] =
    result so far. *)
Inductive state :=
| Finished (o : outcome)
| Element (ar : bool) (todo : nat) (set : list Z) (next : list (nat * list Z)) (res : list Z)
| Insert (ar : bool) (ch : list Z) (todo : nat) (set : list Z) (next : list (nat * list Z)) (res : list Z).

(** The loop headers (generate.go:156, 174, 192) and the return (generate.go:209). *)
Fixpoint loops (ar : bool) (next : list (nat * list Z)) (res : list Z) : state :=
  match next with
  | [] => Finished (Password res)
  | (O, _) :: n => loops ar n res
  | (S t, set) :: n => Element ar t set n res
  end.

(** The start of Generate up to the first loop (generate.go:131-156). *)
Definition start (c : call) : state :=
  let ls := letters (gen c) (noUpper c) in
  let chars := len c - numDigits c - numSymbols c in
  if chars <? 0 then Finished (Failed ErrExceedsTotalLength)
  else if negb (allowRepeat c) && (chars >? Z.of_nat (length ls)) then Finished (Failed ErrLettersExceedsAvailable)
  else if negb (allowRepeat c) && (numDigits c >? Z.of_nat (length (digits (gen c)))) then Finished (Failed ErrDigitsExceedsAvailable)
  else if negb (allowRepeat c) && (numSymbols c >? Z.of_nat (length (symbols (gen c)))) then Finished (Failed ErrSymbolsExceedsAvailable)
  else loops (allowRepeat c)
         [(Z.to_nat chars, ls); (Z.to_nat (numDigits c), digits (gen c)); (Z.to_nat (numSymbols c), symbols (gen c))] [].

(** rand.Int has answered n: randomElement and the test for a repeat (generate.go:162-165), or
    randomInsert (generate.go:251) and the loop header. *)
Definition drawn (s : state) (n : nat) : state :=
  match s with
  | Finished o => Finished o
  | Element ar t set next res =>
      let ch := string_of_byte (nth n set 0) in
      if negb ar && contains res ch then Element ar t set next res else Insert ar ch t set next res
  | Insert ar ch t set next res => loops ar ((t, set) :: next) (firstn n res ++ ch ++ skipn n res)
  end.

(** What the call does next: nothing, a step without a random byte, or a draw of k bytes of which the
    first is masked to b bits, to be repeated until below max (crypto/rand.Int). *)
Inductive want := Stop | Silent (s : state) | Bytes (k : nat) (b max : Z).
Definition ask (s : state) (max : Z) : want :=
  if max <=? 0 then Silent (Finished Panicked)
  else
    let bl := bit_len (max - 1) in
    if bl =? 0 then Silent (drawn s 0)
    else Bytes (Z.to_nat ((bl + 7) / 8)) (if bl mod 8 =? 0 then 8 else bl mod 8) max.
(** randomElement (generate.go:255-261) asks for an index; randomInsert (generate.go:241-252) for a
    place unless the result is empty. *)
Definition wants (s : state) : want :=
  match s with
  | Finished _ => Stop
  | Element _ _ set _ _ => ask s (Z.of_nat (length set))
  | Insert ar ch t set next [] => Silent (loops ar ((t, set) :: next) ch)
  | Insert _ _ _ _ _ ((_ :: _) as res) => ask s (Z.of_nat (length res) + 1)
  end.

(** The k bytes are there: the answer of rand.Int, or the next iteration of its loop. *)
Definition fed (s : state) (b max : Z) (bs : list Z) : state :=
  let n := big_endian (mask_first b bs) in
  if n <? max then drawn s (Z.to_nat n) else s.

(** A call under way: where it is, the bytes of the present io.ReadFull that have come, and (for the
    statements only) all the bytes the reader has ever given it. *)
Record thread := { at_ : state; part : list Z; got : list Z }.
Definition spawn (c : call) : thread := {| at_ := start c; part := []; got := [] |}.

(** A Read has put the bytes bs into the buffer of a call that wants k: io.ReadFull goes on reading or returns. *)
Definition receive (t : thread) (k : nat) (b max : Z) (bs : list Z) : thread :=
  let p := part t ++ bs in
  if (length p <? k)%nat then {| at_ := at_ t; part := p; got := got t ++ bs |}
  else {| at_ := fed (at_ t) b max p; part := []; got := got t ++ bs |}.

(** One step of one call on a reader that is safe for concurrent use, such as crypto/rand.Reader: a
    Read takes some of the bytes (at most those still wanted, perhaps fewer, perhaps none) off the
    stream, or fails; a failed Read makes Generate return the reader's error (generate.go:158-160,
    168-170 and the same in the other loops). *)
Inductive act : list Z -> thread -> list Z -> thread -> Prop :=
| act_silent rng t s' : wants (at_ t) = Silent s' -> act rng t rng {| at_ := s'; part := part t; got := got t |}
| act_read rng t k b max bs : wants (at_ t) = Bytes k b max -> (length bs + length (part t) <= k)%nat ->
    act (bs ++ rng) t rng (receive t k b max bs)
| act_fail rng t k b max : wants (at_ t) = Bytes k b max ->
    act rng t rng {| at_ := Finished (Failed ErrReader); part := []; got := got t |}.

(** The call makes its next move (as in [act]); a move that reads takes one byte, and there is none on an empty stream. *)
Definition turn (rng : list Z) (t : thread) : option (list Z * thread) :=
  match wants (at_ t) with
  | Stop => None
  | Silent s' => Some (rng, {| at_ := s'; part := part t; got := got t |})
  | Bytes k b max => match rng with [] => None | x :: rng' => Some (rng', receive t k b max [x]) end
  end.

(** The calls, by number; [set_thread] replaces one. *)
Definition set_thread (T : nat -> thread) (i : nat) (t : thread) : nat -> thread := fun j => if (j =? i)%nat then t else T j.
Definition config := (list Z * (nat -> thread))%type.
(** Any of the calls makes the next step. *)
Inductive step (n : nat) : config -> config -> Prop :=
| a_step i rng T rng' t' : (i < n)%nat -> act rng (T i) rng' t' -> step n (rng, T) (rng', set_thread T i t').
Inductive steps (n : nat) : config -> config -> Prop :=
| steps_none c : steps n c c
| steps_more c c' c'' : steps n c c' -> step n c' c'' -> steps n c c''.
(** A call number beyond the list stands for no call; it never moves. *)
Definition idle : thread := {| at_ := Finished Panicked; part := []; got := [] |}.
Definition init (calls : list call) (rng : list Z) : config := (rng, fun i => nth i (map spawn calls) idle).

(** The calls whose turn it may be, a scheduler's choice among them (it knows how many moves there have
    been and which bytes have been read), and m moves under that scheduler. *)
Definition finished (t : thread) : bool := match at_ t with Finished _ => true | _ => false end.
Definition live (n : nat) (T : nat -> thread) : list nat := filter (fun i => negb (finished (T i))) (seq 0 n).
Fixpoint play (sigma : nat -> list Z -> nat) (n m moves : nat) (read rng : list Z) (T : nat -> thread) : config :=
  match m with
  | O => (rng, T)
  | S m' =>
      match live n T with
      | [] => (rng, T)
      | l => let i := nth (sigma moves read mod length l) l O in
             match turn rng (T i) with
             | None => (rng, T)
             | Some (rng', t') => play sigma n m' (S moves) (read ++ firstn (length rng - length rng') rng) rng' (set_thread T i t')
             end
      end
  end.

(** ** A reader that is not safe for concurrent use
    NewGenerator takes any io.Reader (generate.go:83, 111-114).  bytes.Reader, strings.Reader and
    their like keep an offset: Read copies from the offset, then loads the offset again, and stores
    it advanced.  The three are steps of their own here. *)
Inductive reading := NoRead | Copied (j : nat) | Loaded (off : nat).
Record uconfig := { offset : nat; uthread : nat -> thread; uread : nat -> reading }.
Definition set_read (U : nat -> reading) (i : nat) (r : reading) : nat -> reading := fun j => if (j =? i)%nat then r else U j.
Inductive ustep (n : nat) (src : list Z) : uconfig -> uconfig -> Prop :=
| u_silent i c s' : (i < n)%nat -> uread c i = NoRead -> wants (at_ (uthread c i)) = Silent s' ->
    ustep n src c {| offset := offset c; uread := uread c;
      uthread := set_thread (uthread c) i {| at_ := s'; part := part (uthread c i); got := got (uthread c i) |} |}
| u_copy i c k b max : (i < n)%nat -> uread c i = NoRead -> wants (at_ (uthread c i)) = Bytes k b max ->
    (offset c < length src)%nat ->
    let bs := firstn (k - length (part (uthread c i))) (skipn (offset c) src) in
    ustep n src c {| offset := offset c; uread := set_read (uread c) i (Copied (length bs));
      uthread := set_thread (uthread c) i (receive (uthread c i) k b max bs) |}
| u_eof i c k b max : (i < n)%nat -> uread c i = NoRead -> wants (at_ (uthread c i)) = Bytes k b max ->
    (length src <= offset c)%nat ->
    ustep n src c {| offset := offset c; uread := uread c;
      uthread := set_thread (uthread c) i {| at_ := Finished (Failed ErrReader); part := []; got := got (uthread c i) |} |}
| u_load i c j : (i < n)%nat -> uread c i = Copied j ->
    ustep n src c {| offset := offset c; uread := set_read (uread c) i (Loaded (offset c + j)); uthread := uthread c |}
| u_store i c o : (i < n)%nat -> uread c i = Loaded o ->
    ustep n src c {| offset := o; uread := set_read (uread c) i NoRead; uthread := uthread c |}.
Inductive usteps (n : nat) (src : list Z) : uconfig -> uconfig -> Prop :=
| usteps_none c : usteps n src c c
| usteps_more c c' c'' : usteps n src c c' -> ustep n src c' c'' -> usteps n src c c''.
Definition uinit (calls : list call) : uconfig :=
  {| offset := 0; uthread := fun i => nth i (map spawn calls) idle; uread := fun _ => NoRead |}.
