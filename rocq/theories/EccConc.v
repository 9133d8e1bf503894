(** * Calls of ECC by several goroutines at once, one memory access at a time. *)
From Coq Require Import NArith Arith List Bool.
From Verif Require Import Gf256Model.
Import ListNotations.
Open Scope nat_scope.

(** The arrays made so far, named by their position. *)
Definition heap := list (list N).
(** An RSEncoder (gf256.go:149-155).  The fields f, c, gen and lgen are written by NewRSEncoder only (gen is never read); the field p is a slice: a pointer to the
    first element of an array (None = nil) and a length, two machine words.  Simplified: the capacity of p is left out (ECC never uses it), and every slice in p begins at
    the first element of its array (ECC stores what make gave it or what it read from p). *)
Record enc := { e_f : Field; e_c : nat; e_lgen : list N; e_ptr : option nat; e_len : nat }.
(** A goroutine inside ECC: its next access to the memory it shares, and what it does with the answer.  Either: the order of the two accesses is not fixed (the Go memory model:
    an access to a value of several words is an access to each, in no particular order). *)
Inductive prog :=
| Done (check : list N)                     (* ECC has returned; check holds this *)
| Crash                                     (* a panic *)
| Wild                                      (* an access beyond the array a slice points to, where anything may be: possible because a length and a pointer may not belong together *)
| GetLen (k : nat -> prog) | GetPtr (k : option nat -> prog)            (* the words of rs.p *)
| SetLen (n : nat) (k : prog) | SetPtr (a : option nat) (k : prog)
| Make (n : nat) (k : nat -> prog)          (* make([]byte, n) *)
| Load (a i : nat) (k : N -> prog) | Save (a i : nat) (v : N) (k : prog)    (* an element of an array *)
| Either (p q : prog).

(** A slice that begins at the first element of an array. *)
Definition slice := (option nat * nat)%type.
(** p[i] and p[i] = v: the bound is checked against the length of the slice; nil cannot be dereferenced. *)
Definition load (p : slice) (i : nat) (k : N -> prog) : prog :=
  if i <? snd p then match fst p with Some a => Load a i k | None => Crash end else Crash.
Definition save (p : slice) (i : nat) (v : N) (k : prog) : prog :=
  if i <? snd p then match fst p with Some a => Save a i v k | None => Crash end else Crash.
(** gf256.go:213 copy(p, data): element i and following, as many as fit. *)
Fixpoint copy_in (p : slice) (i : nat) (data : list N) (k : prog) : prog :=
  match data with
  | [] => k
  | d :: r => if i <? snd p then save p i d (copy_in p (S i) r k) else k
  end.
(** gf256.go:214-216: p[i] = 0 for [steps] values of i. *)
Fixpoint pad (p : slice) (i steps : nat) (k : prog) : prog :=
  match steps with 0 => k | S s => save p i 0%N (pad p (S i) s k) end.
(** gf256.go:233-237: q[j] ^= exp[lg], with q[j] = p[at]; a read and a write.  Simplified: as in [ecc_inner] an index beyond the table exp gives 0 (there is none: C15). *)
Fixpoint inner (f : Field) (lc : N) (p : slice) (at_ : nat) (lg : list N) (k : prog) : prog :=
  match lg with
  | [] => k
  | l :: r => if (l =? 255)%N then inner f lc p (S at_) r k
              else load p at_ (fun x => save p at_ (N.lxor x (nth (N.to_nat (lc + l)) (f_exp f) 0%N)) (inner f lc p (S at_) r k))
  end.
(** gf256.go:226-238: for [steps] values of i. *)
Fixpoint outer (f : Field) (lg : list N) (p : slice) (i steps : nat) (k : prog) : prog :=
  match steps with
  | 0 => k
  | S s => load p i (fun c => if (c =? 0)%N then outer f lg p (S i) s k
                              else inner f (nth (N.to_nat c) (f_log f) 0%N) p (S i) lg (outer f lg p (S i) s k))
  end.
(** gf256.go:239 copy(check, p[len(data):]): [done] has been written, [rest] is still to be; p[i] is next. *)
Fixpoint copy_out (p : slice) (i : nat) (done rest : list N) (k : list N -> prog) : prog :=
  match rest with
  | [] => k done
  | _ :: r => if i <? snd p then load p i (fun x => copy_out p (S i) (done ++ [x]) r k) else k (done ++ rest)
  end.
(** gf256.go:240 rs.p = p. *)
Definition store (p : slice) (k : prog) : prog := Either (SetPtr (fst p) (SetLen (snd p) k)) (SetLen (snd p) (SetPtr (fst p) k)).
(** gf256.go:209 p = rs.p. *)
Definition fetch (k : slice -> prog) : prog := Either (GetPtr (fun a => GetLen (fun l => k (a, l)))) (GetLen (fun l => GetPtr (fun a => k (a, l)))).
(** gf256.go:213-240, once p is chosen. *)
Definition divide (f : Field) (lg data check : list N) (p : slice) : prog :=
  copy_in p 0 data (pad p (length data) (snd p - length data) (outer f (tl lg) p 0 (length data)
    (if length data <=? snd p then copy_out p (length data) [] check (fun ch => store p (Done ch)) else Crash))).
(** func (rs *RSEncoder) ECC (gf256.go:194-241).  Simplified: data and check are the call's own, nobody else changes them. *)
Definition ecc (f : Field) (c : nat) (lg data check : list N) : prog :=
  if length check <? c then Crash else if c =? 0 then Done check
  else GetLen (fun l => if length data + c <=? l then fetch (divide f lg data check)
                        else Make (length data + c) (fun a => divide f lg data check (Some a, length data + c))).

(** A call: the encoder it is made on, data, and what check holds before. *)
Record call := { on : nat; data : list N; check : list N }.
Record world := { arrays : heap; encs : nat -> enc }.
Definition put {A} (f : nat -> A) (i : nat) (x : A) : nat -> A := fun j => if j =? i then x else f j.
Fixpoint set_nth {A} (l : list A) (i : nat) (x : A) : list A :=
  match l, i with [], _ => [] | _ :: r, 0 => x :: r | y :: r, S j => y :: set_nth r j x end.
Definition with_ptr (e : enc) (a : option nat) : enc := {| e_f := e_f e; e_c := e_c e; e_lgen := e_lgen e; e_ptr := a; e_len := e_len e |}.
Definition with_len (e : enc) (n : nat) : enc := {| e_f := e_f e; e_c := e_c e; e_lgen := e_lgen e; e_ptr := e_ptr e; e_len := n |}.
(** One access by a call on encoder e.  A write beyond an array may change anything. *)
Inductive act (e : nat) (w : world) : prog -> world -> prog -> Prop :=
| a_getlen k : act e w (GetLen k) w (k (e_len (encs w e)))
| a_getptr k : act e w (GetPtr k) w (k (e_ptr (encs w e)))
| a_setlen n k : act e w (SetLen n k) {| arrays := arrays w; encs := put (encs w) e (with_len (encs w e) n) |} k
| a_setptr a k : act e w (SetPtr a k) {| arrays := arrays w; encs := put (encs w) e (with_ptr (encs w e) a) |} k
| a_make n k : act e w (Make n k) {| arrays := arrays w ++ [repeat 0%N n]; encs := encs w |} (k (length (arrays w)))
| a_load a i k buf v : nth_error (arrays w) a = Some buf -> nth_error buf i = Some v -> act e w (Load a i k) w (k v)
| a_load_wild a i k buf : nth_error (arrays w) a = Some buf -> nth_error buf i = None -> act e w (Load a i k) w Wild
| a_save a i v k buf : nth_error (arrays w) a = Some buf -> i < length buf -> act e w (Save a i v k) {| arrays := set_nth (arrays w) a (set_nth buf i v); encs := encs w |} k
| a_save_wild a i v k buf w' : nth_error (arrays w) a = Some buf -> length buf <= i -> act e w (Save a i v k) w' Wild
| a_left p q : act e w (Either p q) w p
| a_right p q : act e w (Either p q) w q.

(** Any number of encoders, any number of calls. *)
Section Calls.
  Variable calls : list call.
  (** Every call is about to begin; in w an encoder may have been used before. *)
  Definition started (w : world) : nat -> prog := fun i =>
    match nth_error calls i with Some k => let e := encs w (on k) in ecc (e_f e) (e_c e) (e_lgen e) (data k) (check k) | None => Done [] end.
  Inductive xstep : world * (nat -> prog) -> world * (nat -> prog) -> Prop :=
  | x_step w T i k w' p' : nth_error calls i = Some k -> act (on k) w (T i) w' p' -> xstep (w, T) (w', put T i p').
  Inductive xsteps : nat -> world * (nat -> prog) -> world * (nat -> prog) -> Prop :=
  | xs_none s : xsteps 0 s s
  | xs_more n s s' s'' : xsteps n s s' -> xstep s' s'' -> xsteps (S n) s s''.
  Definition reached (w w' : world) (T' : nat -> prog) : Prop := exists n, xsteps n (w, started w) (w', T').
End Calls.
