(** * Calls on ciphers by several goroutines at once, one memory access at a time. *)
From Coq Require Import ZArith List Bool.
From Verif Require Import TfLang CrypterModel.
Import ListNotations.
Open Scope Z_scope.

(** A call: Encrypt or Decrypt (crypter.go:150-190), Encrypt64 or Decrypt64 (crypter.go:201-216), SetKey, SetTweak (crypter.go:222-232). *)
Inductive kind := Bytes (enc : bool) | Words (enc : bool) | NewKey (key : list Z) | NewTweak (a b : Z).
(** The cipher it is made on, its src and what its dst holds before (bytes or words; empty for the setters).  Simplified: src and dst are the call's own and do not
    overlap (C03 covers overlap for a single call), and they hold a block (a shorter slice panics). *)
Record call := { on : nat; what : kind; src : list Z; dst : list Z }.
(** The goroutine of a call: the position in its program, the locals of encrypt/decrypt, and dst. *)
Record thread := { pc : nat; locals : env; into : list Z }.
(** One access to the fields of the cipher, or one statement on locals. *)
Inductive cmd :=
| Load (i : nat)                       (* tmpin[i] = Uint64(src[i*8:]) *)
| Body (private : bool) (s : stmt)     (* a statement of encrypt/decrypt; private: input and output are src and dst, otherwise tmpData1 and tmpData2 *)
| Store (i : nat)                      (* PutUint64(dst[i*8:], tmpout[i]) *)
| PutKey (i : nat) (w : Z)             (* expandedKey[i] = w *)
| PutTweak (i : nat) (w : Z).          (* expandedTweak[i] = w *)
(** encrypt or decrypt of the implementation (crypter256.go:66-911 and siblings). *)
Definition body_of (enc : bool) (v : variant) : list stmt := if enc then enc_body v else dec_body v.
Definition program (c : cipher) (k : kind) : list cmd :=
  let uintLen := Z.to_nat (stateSize c / 64) in
  match k with
  (* crypter.go:152-164, 177-189; getTempData (crypter256.go:54-56) returns the same two arrays to every call *)
  | Bytes e => map Load (seq 0 uintLen) ++ map (Body false) (body_of e (impl c)) ++ map Store (seq 0 uintLen)
  (* crypter.go:202, 215 *)
  | Words e => map (Body true) (body_of e (impl c))
  (* func setKey (crypter.go:243-252); key and parity are the call's own *)
  | NewKey key => map (fun i => PutKey i (nth i key 0)) (seq 0 (qwords (impl c))) ++ [PutKey (qwords (impl c)) (fold_left wxor (firstn (qwords (impl c)) key) KEY_SCHEDULE_CONST)]
  (* func setTweak (crypter.go:235-241) *)
  | NewTweak a b => [PutTweak 0 a; PutTweak 1 b; PutTweak 2 (wxor a b)]
  end.

Definition set_tmp1 (c : cipher) (l : list Z) : cipher :=
  {| stateSize := stateSize c; impl := impl c; expandedTweak := expandedTweak c; expandedKey := expandedKey c; tmpData1 := l; tmpData2 := tmpData2 c |}.
Definition set_tmp2 (c : cipher) (l : list Z) : cipher :=
  {| stateSize := stateSize c; impl := impl c; expandedTweak := expandedTweak c; expandedKey := expandedKey c; tmpData1 := tmpData1 c; tmpData2 := l |}.
Definition set_xk (c : cipher) (l : list Z) : cipher :=
  {| stateSize := stateSize c; impl := impl c; expandedTweak := expandedTweak c; expandedKey := l; tmpData1 := tmpData1 c; tmpData2 := tmpData2 c |}.
Definition set_xt (c : cipher) (l : list Z) : cipher :=
  {| stateSize := stateSize c; impl := impl c; expandedTweak := l; expandedKey := expandedKey c; tmpData1 := tmpData1 c; tmpData2 := tmpData2 c |}.

(** What the variables of encrypt/decrypt hold at this moment. *)
Definition sees (private : bool) (k : call) (c : cipher) (t : thread) : env := fun v =>
  match v with
  | In i => nth i (if private then src k else tmpData1 c) 0
  | Out i => nth i (if private then into t else tmpData2 c) 0
  | XK i => nth i (expandedKey c) 0
  | XT i => nth i (expandedTweak c) 0
  | _ => locals t v
  end.
Definition lhs (s : stmt) : var := match s with Assign v _ | AddAssign v _ | SubAssign v _ => v end.
Definition value (r : env) (s : stmt) : Z :=
  match s with Assign _ e => eval r e | AddAssign v e => wadd (r v) (eval r e) | SubAssign v e => wsub (r v) (eval r e) end.
(** One step of a call: the cipher and the goroutine afterwards.  (The bodies assign only locals and output.) *)
Definition act (k : call) (m : cmd) (c : cipher) (t : thread) : cipher * thread :=
  let t' := {| pc := S (pc t); locals := locals t; into := into t |} in
  match m with
  | Load i => (set_tmp1 c (set_nth i (uint64le (skipn (i * 8) (src k))) (tmpData1 c)), t')
  | Body private s =>
      let z := value (sees private k c t) s in
      match lhs s with
      | Out i => if private then (c, {| pc := S (pc t); locals := locals t; into := set_nth i z (into t) |}) else (set_tmp2 c (set_nth i z (tmpData2 c)), t')
      | v => (c, {| pc := S (pc t); locals := upd (locals t) v z; into := into t |})
      end
  | Store i => (c, {| pc := S (pc t); locals := locals t; into := blit (into t) (i * 8) (put_uint64le (nth i (tmpData2 c) 0)) |})
  | PutKey i w => (set_xk c (set_nth i w (expandedKey c)), t')
  | PutTweak i w => (set_xt c (set_nth i w (expandedTweak c)), t')
  end.

(** Any number of ciphers, any number of calls. *)
Section Calls.
  Variable calls : list call.
  Definition put {A} (f : nat -> A) (i : nat) (x : A) : nat -> A := fun j => if Nat.eqb j i then x else f j.
  Definition started : nat -> thread := fun i => {| pc := 0; locals := fun _ => 0; into := match nth_error calls i with Some k => dst k | None => [] end |}.
  (** One step of one of the calls. *)
  Inductive xstep : (nat -> cipher) * (nat -> thread) -> (nat -> cipher) * (nat -> thread) -> Prop :=
  | x_step C T i k m : nth_error calls i = Some k -> nth_error (program (C (on k)) (what k)) (pc (T i)) = Some m ->
      xstep (C, T) (put C (on k) (fst (act k m (C (on k)) (T i))), put T i (snd (act k m (C (on k)) (T i)))).
  Inductive xsteps : nat -> (nat -> cipher) * (nat -> thread) -> (nat -> cipher) * (nat -> thread) -> Prop :=
  | xs_none s : xsteps 0 s s
  | xs_more n s s' s'' : xsteps n s s' -> xstep s' s'' -> xsteps (S n) s s''.
  (** A call has returned. *)
  Definition returned (C : nat -> cipher) (T : nat -> thread) (i : nat) : Prop :=
    exists k, nth_error calls i = Some k /\ pc (T i) = length (program (C (on k)) (what k)).
End Calls.
