(** * insert step by step: crashes, failing reads and writes, several inserts at once. *)
From Coq Require Import String.
From Coq Require Import ZArith Arith List Bool.
From Verif Require Import GoStr FsModel CmdModel.
Import ListNotations.
Open Scope nat_scope.

(** Where a call of Run stands: before os.Create; in io.Copy, with the read position of the source, the write position of the target and the bytes
    read and not yet written; returned. *)
Inductive Phase := Ready | Copying (roff woff : nat) (buf : str) | Returned (e : Err).
(** pwrite at a position: a gap before it is filled with zero bytes. *)
Definition overlay (old : str) (k : nat) (a : str) : str := firstn k old ++ repeat 0%Z (k - length old) ++ a ++ skipn (k + length a) old.
Section Insert.
  Variables src tgt : str.        (* the source given by --file, already open; the target filepath.Join(globals.Root, c.PassName) *)
  (** func (c *InsertCmd) Run (insert.go:18-33) with --file, one system call at a time.  io.Copy reads pieces of any size and writes each with one or more
      calls until all is written. *)
  Inductive istep : World -> Phase -> World -> Phase -> Prop :=
    (* os.Create (23-26) *)
    | i_refused w : create w tgt [] = None -> istep w Ready w (Returned ECreate)
    | i_create w w' : create w tgt [] = Some w' -> istep w Ready w' (Copying 0 0 [])
    (* io.Copy (27) *)
    | i_read w content r k c after : open_read w src = Some content -> skipn r content = c ++ after -> c <> [] -> istep w (Copying r k []) w (Copying (r + length c) k c)
    | i_write w old w' r k a b : a <> [] -> open_read w tgt = Some old -> create w tgt (overlay old k a) = Some w' -> istep w (Copying r k (a ++ b)) w' (Copying r (k + length a) b)
    (* the end of the source, and return nil (28-37) *)
    | i_eof w content r k : open_read w src = Some content -> length content <= r -> istep w (Copying r k []) w (Returned ENil).
  (** A read or write fails: io.Copy returns the error, which is dropped (27), and Run returns nil (37). *)
  Inductive ifault : Phase -> Phase -> Prop := i_fault r k buf : ifault (Copying r k buf) (Returned ENil).
End Insert.
(** Calls of Run by several processes: source and target of each. *)
Section Many.
  Variable calls : list (str * str).
  Definition upd (P : nat -> Phase) (i : nat) (ph : Phase) : nat -> Phase := fun k => if k =? i then ph else P k.
  (** One step of one of them; faults: may calls fail. *)
  Inductive cstep (faults : bool) : World * (nat -> Phase) -> World * (nat -> Phase) -> Prop :=
    | c_step w P i src tgt w' ph : nth_error calls i = Some (src, tgt) -> istep src tgt w (P i) w' ph -> cstep faults (w, P) (w', upd P i ph)
    | c_fault w P i src tgt ph : faults = true -> nth_error calls i = Some (src, tgt) -> ifault (P i) ph -> cstep faults (w, P) (w, upd P i ph).
  (** Any number of steps; a crash may come after any of them. *)
  Inductive csteps (faults : bool) : nat -> World * (nat -> Phase) -> World * (nat -> Phase) -> Prop :=
    | cs_none s : csteps faults 0 s s
    | cs_more n s s' s'' : csteps faults n s s' -> cstep faults s' s'' -> csteps faults (S n) s s''.
End Many.
Definition all_ready : nat -> Phase := fun _ => Ready.
