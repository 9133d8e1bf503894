(** * Model of repo/repo.go. *)
From Coq Require Import String.
From Coq Require Import ZArith Arith List Bool Permutation.
From Verif Require Import GoStr FsModel CmModel.
Import ListNotations.
Open Scope nat_scope.

(** ** Scan *)
(** Repo.Files (repo.go:19-20): a map from directory names to lists of paths. *)
Definition Files := list (str * list str).
(** The six directories included (repo.go:54). *)
Definition categories : list str := map lit ["people"; "email"; "phone"; "sites"; "devices"; "bank"]%string.
Definition included (dir : str) : bool := existsb (eqs dir) categories.
(** r.Files[dir] = append(r.Files[dir], fp), creating the list if absent (repo.go:55-58). *)
Definition append_file (fs : Files) (dir fp : str) : Files :=
  put str_dec fs dir ((match get str_dec fs dir with Some l => l | None => [] end) ++ [fp]).
(** The walk function on a path that is not a directory (repo.go:44-60); n = len(r.Root)+1; None = slice panic. *)
Definition visit_file (n : nat) (path name : str) (fs : Files) : option Files :=
  if length path <? n then None
  else
    let fp := skipn n path in
    let dir := DirOf fp in
    if eqs name (lit ".DS_Store") then Some fs
    else if included dir then Some (append_file fs dir fp)
    else Some fs.
(** filepath.Walk with the walk function of Scan (repo.go:35-62): a directory named .git is skipped, the others are read in
    lexical order.  Reading a directory and lstat never fail in the model, so log.Fatalf is reached only from the root (Scan). *)
Fixpoint walk (n : nat) (path name : str) (nd : Node) (fs : Files) : option Files :=
  match nd with
  | File _ => visit_file n path name fs
  | Dir es =>
      if eqs name (lit ".git") then Some fs
      else
        (fix entries (l : list (str * Node)) (fs : Files) : option Files :=
           match l with
           | [] => Some fs
           | (nm, x) :: t => match walk n (Join path nm) nm x fs with Some fs' => entries t fs' | None => None end
           end) es fs
  end.
Inductive ScanResult := Scanned (fs : Files) | RootMissing | Fatal | ScanPanic.
(** func (r *Repo) Scan (repo.go:23-64): os.Stat errors other than "does not exist" pass the check, and then the walk function
    gets the error and ends the process. *)
Definition Scan (w : World) (root : str) : ScanResult :=
  match lookup w root with
  | NotExist => RootMissing
  | NotDir => Fatal
  | Found nd => match walk (length root + 1) root (Base root) nd [] with Some fs => Scanned fs | None => ScanPanic end
  end.

(** ** Reading a file line by line *)
Definition nlb : Z := 10%Z.
Definition crb : Z := 13%Z.
(** bufio.dropCR *)
Definition dropCR (s : str) : str := match rev s with c :: t => if (c =? crb)%Z then rev t else s | [] => s end.
(** bytes.IndexByte(data, '\n') as a split: what precedes the first newline and what follows it. *)
Fixpoint split_nl (s : str) : option (str * str) :=
  match s with
  | [] => None
  | c :: t => if (c =? nlb)%Z then Some ([], t) else match split_nl t with Some (a, b) => Some (c :: a, b) | None => None end
  end.
(** bufio.Scanner (Go 1.17) with ScanLines over a file.  used: bytes of the buffer before the unread data (s.start);
    data: s.buf[s.start:s.end]; size: len(s.buf); rest: the file from the read position; eof: s.err = io.EOF. *)
Record Scanner := { used : nat; data : str; size : nat; rest : str; eof : bool }.
Definition newScanner (content : str) : Scanner := {| used := 0; data := []; size := 0; rest := content; eof := false |}.
Definition maxTokenSize : nat := 256 * 256.
Definition startBufSize : nat := 64 * 64.
Inductive Scanned1 := Token (t : str) (s : Scanner) | NoMore.
(** One call of Scan.  Nondeterminism: a read may return any positive number of the bytes available, up to the free space. *)
Inductive scan1 : Scanner -> Scanned1 -> Prop :=
  (* split finds a line *)
  | sc_line s a b : data s <> [] \/ eof s = true -> split_nl (data s) = Some (a, b) ->
      scan1 s (Token (dropCR a) {| used := used s + length a + 1; data := b; size := size s; rest := rest s; eof := eof s |})
  (* the last line, without newline *)
  | sc_last s : eof s = true -> data s <> [] -> split_nl (data s) = None ->
      scan1 s (Token (dropCR (data s)) {| used := used s + length (data s); data := []; size := size s; rest := rest s; eof := true |})
  | sc_end s : eof s = true -> data s = [] -> scan1 s NoMore
  (* shift, then the buffer is full and cannot grow: ErrTooLong *)
  | sc_long s : eof s = false -> split_nl (data s) = None ->
      let used' := if (0 <? used s) && ((used s + length (data s) =? size s) || (size s / 2 <? used s)) then 0 else used s in
      used' + length (data s) = size s -> maxTokenSize <= size s -> scan1 s NoMore
  (* read more: shift, grow if full (growing also shifts), read *)
  | sc_read s k o : eof s = false -> split_nl (data s) = None ->
      let used' := if (0 <? used s) && ((used s + length (data s) =? size s) || (size s / 2 <? used s)) then 0 else used s in
      let full := used' + length (data s) =? size s in
      (full = true -> size s < maxTokenSize) ->
      let size' := if full then (if size s =? 0 then startBufSize else Nat.min (size s * 2) maxTokenSize) else size s in
      let used'' := if full then 0 else used' in
      (rest s <> [] -> 0 < k <= length (rest s) /\ used'' + length (data s) + k <= size') ->
      (rest s = [] -> k = 0) ->
      scan1 {| used := used''; data := data s ++ firstn k (rest s); size := size'; rest := skipn k (rest s); eof := match rest s with [] => true | _ => false end |} o ->
      scan1 s o.

(** What a line handler answers. *)
Inductive HErr := HNil | HTerminate | HOther.
Inductive LErr := LNil | LOpen | LBinary.
(** The loop of GetFileContentByLine (repo.go:155-173); St = the state the handler closes over. *)
Section Lines.
  Context {St : Type}.
  Variable handle : nat -> str -> St -> St * HErr.
  Inductive read_lines : Scanner -> nat -> St -> St -> LErr -> Prop :=
    | rl_end s line st : scan1 s NoMore -> read_lines s line st st LNil
    | rl_binary s s' text st : scan1 s (Token text s') -> In 0%Z text -> read_lines s 1 st st LBinary
    | rl_stop s s' line text st st' h : scan1 s (Token text s') -> (line = 1 -> ~ In 0%Z text) ->
        handle line text st = (st', h) -> h <> HNil -> read_lines s line st st' LNil
    | rl_next s s' line text st st' st'' e : scan1 s (Token text s') -> (line = 1 -> ~ In 0%Z text) ->
        handle line text st = (st', HNil) -> read_lines s' (S line) st' st'' e -> read_lines s line st st'' e.
  (** func GetFileContentByLine (repo.go:145-175). *)
  Inductive GetFileContentByLine (w : World) (filename : str) (st : St) : St -> LErr -> Prop :=
    | gf_open : open_read w filename = None -> GetFileContentByLine w filename st st LOpen
    | gf_read content st' e : open_read w filename = Some content -> read_lines (newScanner content) 1 st st' e ->
        GetFileContentByLine w filename st st' e.
End Lines.

(** ** Searching *)
Inductive CErr := CNil | CMatch | CTerminate | COther.
(** The handler SearchInFile passes (repo.go:181-194). *)
Definition search_handler (compare : str -> CErr) (line : nat) (text : str) (ms : list (nat * str)) : list (nat * str) * HErr :=
  match compare text with
  | CMatch => (ms ++ [(line, text)], HNil)
  | CTerminate => (ms, HTerminate)
  | COther => (ms, HOther)
  | CNil => (ms, HNil)
  end.
(** func SearchInFile (repo.go:177-197): the error of GetFileContentByLine is dropped; the returned error is always nil. *)
Definition SearchInFile (w : World) (filename : str) (compare : str -> CErr) (ms : list (nat * str)) : Prop :=
  exists e, GetFileContentByLine (search_handler compare) w filename [] ms e.
(** One iteration order of the map: its entries in some order. *)
Definition in_order (fs : Files) (order : list str) : Prop := exists fs', Permutation fs' fs /\ order = concat (map snd fs').
Definition yes_no (p : str -> bool) (line : str) : CErr := if p line then CMatch else CNil.
(** The loops of GlobSearch (repo.go:72-86), DirectSearch (95-109) and GrepSearch (126-140), p being the line test: every path is
    opened as it is, whatever r.Root. *)
Definition search_files (w : World) (fs : Files) (p : str -> bool) (res : list (str * list (nat * str))) : Prop :=
  exists order, in_order fs order /\ Forall2 (fun f r => fst r = f /\ SearchInFile w f (yes_no p) (snd r)) order res.
(** GlobSearch (repo.go:67-87) and GrepSearch (123-143): compile is glob.Compile / regexp.Compile; None = error. *)
Inductive compiled_search (compile : str -> option (str -> bool)) (w : World) (fs : Files) (query : str) : option (list (str * list (nat * str))) -> Prop :=
  | cs_error : compile query = None -> compiled_search compile w fs query None
  | cs_ok p res : compile query = Some p -> search_files w fs p res -> compiled_search compile w fs query (Some res).
(** func (r *Repo) DirectSearch (repo.go:94-110). *)
Definition DirectSearch (w : World) (fs : Files) (query : str) (res : list (str * list (nat * str))) : Prop := search_files w fs (fun line => eqs line query) res.
