(** * Reading a file line by line when reads fail or the file changes meanwhile. *)
From Coq Require Import String.
From Coq Require Import ZArith Arith List Bool.
From Verif Require Import GoStr FsModel CmModel RepoModel.
Import ListNotations.
Open Scope nat_scope.

(** What one call of os.File.Read answers: some bytes, the end of the file, or an error. *)
Inductive Reply := Chunk (c : str) | EndOfFile | ReadError.
(** bufio.Scanner (Go 1.17) with ScanLines over any reader: as RepoModel.Scanner, but nothing is known of what is still to come.  stopped: s.err is
    not nil; Scan treats io.EOF and other errors alike (the split function gets atEOF = s.err != nil). *)
Record Sc := { sused : nat; sdata : str; ssize : nat; stopped : bool }.
Definition newSc : Sc := {| sused := 0; sdata := []; ssize := 0; stopped := false |}.
Inductive Out := OToken (t : str) (s : Sc) | ONoMore.
(** One call of Scan and the replies it gets.  The reader gets the free part of the buffer; os.File.Read answers with at least one byte if it does not
    report the end or an error. *)
Inductive scanr : Sc -> list Reply -> Out -> Prop :=
  (* split finds a line *)
  | sr_line s a b : sdata s <> [] \/ stopped s = true -> split_nl (sdata s) = Some (a, b) ->
      scanr s [] (OToken (dropCR a) {| sused := sused s + length a + 1; sdata := b; ssize := ssize s; stopped := stopped s |})
  (* the last line, without newline *)
  | sr_last s : stopped s = true -> sdata s <> [] -> split_nl (sdata s) = None ->
      scanr s [] (OToken (dropCR (sdata s)) {| sused := sused s + length (sdata s); sdata := []; ssize := ssize s; stopped := true |})
  | sr_end s : stopped s = true -> sdata s = [] -> scanr s [] ONoMore
  (* shift, then the buffer is full and cannot grow: ErrTooLong *)
  | sr_long s : stopped s = false -> split_nl (sdata s) = None ->
      let used' := if (0 <? sused s) && ((sused s + length (sdata s) =? ssize s) || (ssize s / 2 <? sused s)) then 0 else sused s in
      used' + length (sdata s) = ssize s -> maxTokenSize <= ssize s -> scanr s [] ONoMore
  (* read more: shift, grow if full (growing also shifts), read *)
  | sr_read s rp tr o : stopped s = false -> split_nl (sdata s) = None ->
      let used' := if (0 <? sused s) && ((sused s + length (sdata s) =? ssize s) || (ssize s / 2 <? sused s)) then 0 else sused s in
      let full := used' + length (sdata s) =? ssize s in
      (full = true -> ssize s < maxTokenSize) ->
      let size' := if full then (if ssize s =? 0 then startBufSize else Nat.min (ssize s * 2) maxTokenSize) else ssize s in
      let used'' := if full then 0 else used' in
      (forall c, rp = Chunk c -> c <> [] /\ used'' + length (sdata s) + length c <= size') ->
      scanr {| sused := used''; sdata := sdata s ++ match rp with Chunk c => c | _ => [] end; ssize := size'; stopped := match rp with Chunk _ => false | _ => true end |} tr o ->
      scanr s (rp :: tr) o.

(** The loop of GetFileContentByLine (repo.go:155-173) after os.Open, with the replies of all its reads; scanner.Err() is never asked for. *)
Section Lines.
  Context {St : Type}.
  Variable handle : nat -> str -> St -> St * HErr.
  Inductive lines_from : Sc -> nat -> list Reply -> St -> St -> LErr -> Prop :=
    | lf_end s line tr st : scanr s tr ONoMore -> lines_from s line tr st st LNil
    | lf_binary s s' tr text st : scanr s tr (OToken text s') -> In 0%Z text -> lines_from s 1 tr st st LBinary
    | lf_stop s s' line tr text st st' h : scanr s tr (OToken text s') -> (line = 1 -> ~ In 0%Z text) ->
        handle line text st = (st', h) -> h <> HNil -> lines_from s line tr st st' LNil
    | lf_next s s' line tr tr' text st st' st'' e : scanr s tr (OToken text s') -> (line = 1 -> ~ In 0%Z text) ->
        handle line text st = (st', HNil) -> lines_from s' (S line) tr' st' st'' e -> lines_from s line (tr ++ tr') st st'' e.
  (** func GetFileContentByLine (repo.go:145-175) on an open file. *)
  Definition lines_of_replies (tr : list Reply) (st st' : St) (e : LErr) : Prop := lines_from newSc 1 tr st st' e.
End Lines.
(** func SearchInFile (repo.go:177-197) on an open file. *)
Definition search_replies (tr : list Reply) (compare : str -> CErr) (ms : list (nat * str)) : Prop :=
  exists e, lines_of_replies (search_handler compare) tr [] ms e.

(** The replies of reads of one open file whose content at each moment is F; off: the read position.  A read may fail at any moment. *)
Inductive replies_of (F : nat -> str) : nat -> nat -> list Reply -> nat -> Prop :=
  | ro_nil t off : replies_of F t off [] t
  | ro_chunk t u t' off c after tr : t <= u -> skipn off (F u) = c ++ after -> c <> [] -> replies_of F u (off + length c) tr t' -> replies_of F t off (Chunk c :: tr) t'
  | ro_eof t u t' off tr : t <= u -> length (F u) <= off -> replies_of F u off tr t' -> replies_of F t off (EndOfFile :: tr) t'
  | ro_error t u t' off tr : t <= u -> replies_of F u off tr t' -> replies_of F t off (ReadError :: tr) t'.
