(** * repo.Scan on a file system with symbolic links and permissions, while other processes change it. *)
From Coq Require Import String.
From Coq Require Import ZArith Arith List Bool.
From Verif Require Import GoStr FsModel CmModel RepoModel.
Import ListNotations.
Open Scope nat_scope.

(** ** The walk over what the system calls answer *)
(** What the operating system answers at one moment: os.Stat (repo.go:29), os.Lstat (None = error, Some true = a directory) and the names
    filepath.Walk reads from a directory (None = error); Walk sorts them, so they are in lexical order. *)
Inductive StatRes := Exists | Missing | Refused.
Record Snap := { stat : str -> StatRes; lstat : str -> option bool; readdir : str -> option (list str) }.
Inductive WalkRes := WOk (fs : Files) | WFatal | WPanic.
Section Walk.
  Variable W : nat -> Snap.      (* the answers at each moment *)
  Variable n : nat.              (* len(r.Root)+1 *)
  (** filepath.walk (Go 1.18) with the walk function of Scan (repo.go:35-62): from moment t, at a path that os.Lstat reported as a directory or
      not, to a result and the moment of the last system call.  FileInfo.Name() is the base of the path. *)
  Inductive walks : nat -> str -> bool -> Files -> WalkRes -> nat -> Prop :=
    | wk_file t path fs fs' : visit_file n path (Base path) fs = Some fs' -> walks t path false fs (WOk fs') t
    | wk_panic t path fs : visit_file n path (Base path) fs = None -> walks t path false fs WPanic t
    (* the walk function gets the error: log.Fatalf (36-38), before it looks at the name *)
    | wk_unreadable t u path fs : t <= u -> readdir (W u) path = None -> walks t path true fs WFatal u
    (* filepath.SkipDir (41-43) *)
    | wk_git t u path fs names : t <= u -> readdir (W u) path = Some names -> Base path = lit ".git" -> walks t path true fs (WOk fs) u
    | wk_dir t u v path fs names r : t <= u -> readdir (W u) path = Some names -> Base path <> lit ".git" -> wentries u path names fs r v -> walks t path true fs r v
  with wentries : nat -> str -> list str -> Files -> WalkRes -> nat -> Prop :=
    | en_end t path fs : wentries t path [] fs (WOk fs) t
    | en_gone t u path nm names fs : t <= u -> lstat (W u) (Join path nm) = None -> wentries t path (nm :: names) fs WFatal u
    | en_next t u v v' path nm names fs d fs' r : t <= u -> lstat (W u) (Join path nm) = Some d -> walks u (Join path nm) d fs (WOk fs') v ->
        wentries v path names fs' r v' -> wentries t path (nm :: names) fs r v'
    | en_stop t u v path nm names fs d r : t <= u -> lstat (W u) (Join path nm) = Some d -> walks u (Join path nm) d fs r v ->
        r = WFatal \/ r = WPanic -> wentries t path (nm :: names) fs r v.
End Walk.
Definition scan_res (r : WalkRes) : ScanResult := match r with WOk fs => Scanned fs | WFatal => Fatal | WPanic => ScanPanic end.
(** func (r *Repo) Scan (repo.go:23-64) from moment t to moment t'. *)
Inductive ScanLive (W : nat -> Snap) (root : str) (t : nat) : ScanResult -> nat -> Prop :=
  | sl_missing u : t <= u -> stat (W u) root = Missing -> ScanLive W root t RootMissing u
  | sl_error u v : t <= u -> stat (W u) root <> Missing -> u <= v -> lstat (W v) root = None -> ScanLive W root t Fatal v
  | sl_walk u v d r t' : t <= u -> stat (W u) root <> Missing -> u <= v -> lstat (W v) root = Some d ->
      walks W (length root + 1) v root d [] r t' -> ScanLive W root t (scan_res r) t'.

(** ** A file system with links and permissions *)
(** LDir r x: may the directory be listed, may it be searched. *)
Inductive LNode := LFile (content : str) | LLink (target : str) | LDir (r x : bool) (es : list (str * LNode)).
Fixpoint lchild (es : list (str * LNode)) (name : str) : option LNode :=
  match es with [] => None | (n, x) :: t => if str_dec name n then Some x else lchild t name end.
Record LWorld := { ltop : LNode; lcwd : list str }.        (* the directory "/" and the working directory *)
Inductive LRes := LFound (n : LNode) | LMissing | LError.
(** Path resolution of the Linux kernel (path_resolution(7)): every directory passed must be searchable; a link is followed, from its own directory or
    from "/", except the last element if [follow] is false; k: the links still allowed (ELOOP after 40).  A relative path is resolved through
    the names of the working directory. *)
Section Resolve.
  Variable top : LNode.
  Fixpoint lresolve (k : nat) : list LNode -> LNode -> list str -> bool -> LRes :=
    fix go (anc : list LNode) (cur : LNode) (cs : list str) (follow : bool) : LRes :=
      match cs with
      | [] => LFound cur
      | c :: r =>
          match cur with
          | LDir _ x es =>
              if eqs c [] then go anc cur r follow
              else if negb x then LError
              else if eqs c (lit ".") then go anc cur r follow
              else if eqs c (lit "..") then match anc with p :: anc' => go anc' p r follow | [] => go [] cur r follow end
              else match lchild es c with
                   | None => LMissing
                   | Some (LLink tgt) =>
                       if (match r with [] => negb follow | _ => false end) then LFound (LLink tgt)
                       else match k with
                            | 0 => LError
                            | S k' => if rooted tgt then lresolve k' [] top (comps tgt ++ r) follow else lresolve k' anc cur (comps tgt ++ r) follow
                            end
                   | Some nd => go (cur :: anc) nd r follow
                   end
          | _ => LError
          end
      end.
End Resolve.
Definition llookup (w : LWorld) (follow : bool) (p : str) : LRes :=
  match p with
  | [] => LMissing
  | _ => lresolve (ltop w) 40 [] (ltop w) ((if rooted p then [] else lcwd w) ++ comps p) follow
  end.
(** os.Stat, os.Lstat, and opening a directory and reading its names. *)
Definition snap (w : LWorld) : Snap :=
  {| stat := fun p => match llookup w true p with LFound _ => Exists | LMissing => Missing | LError => Refused end;
     lstat := fun p => match llookup w false p with LFound (LDir _ _ _) => Some true | LFound _ => Some false | _ => None end;
     readdir := fun p => match llookup w true p with LFound (LDir true _ es) => Some (map fst es) | _ => None end |}.
(** A file system nobody changes. *)
Definition still (w : LWorld) : nat -> Snap := fun _ => snap w.
