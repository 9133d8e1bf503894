(** * Model of GlobSearch (repo/repo.go:67-87) with the real glob package. *)
From Coq Require Import String.
From Coq Require Import ZArith Arith List Bool.
From Verif Require Import Utf8 GoStr FsModel RepoModel.
From Verif Require GlobLex GlobMatch GlobCompile GlobSpec.
Import ListNotations.
Open Scope nat_scope.

(** The handler SearchInFile makes (repo.go:181-194) from GlobSearch's comparison (repo.go:75-80): None = the match has panicked, and
    nothing more happens. *)
Definition glob_handler (m : GlobMatch.Matcher) (line : nat) (text : str) (st : option (list (nat * str))) : option (list (nat * str)) * HErr :=
  match st with
  | None => (None, HTerminate)
  | Some ms => match GlobMatch.Match m text with
               | None => (None, HTerminate)
               | Some true => (Some (ms ++ [(line, text)]), HNil)
               | Some false => (Some ms, HNil)
               end
  end.
Definition glob_file (m : GlobMatch.Matcher) (w : World) (f : str) (r : option (list (nat * str))) : Prop := exists e, GetFileContentByLine (glob_handler m) w f (Some []) r e.
Inductive Found_ := GErr | GPanic | GFound (res : list (str * list (nat * str))).
(** The loops (repo.go:72-86) over the paths in some order of the map. *)
Inductive glob_files (m : GlobMatch.Matcher) (w : World) : list str -> list (str * list (nat * str)) -> Found_ -> Prop :=
  | gf_done acc : glob_files m w [] acc (GFound acc)
  | gf_panic f fs acc : glob_file m w f None -> glob_files m w (f :: fs) acc GPanic
  | gf_next f fs acc ms o : glob_file m w f (Some ms) -> glob_files m w fs (acc ++ [(f, ms)]) o -> glob_files m w (f :: fs) acc o.
(** func (r *Repo) GlobSearch (repo.go:67-87): the paths are opened as they are, whatever r.Root. *)
Inductive GlobSearch (w : World) (fs : Files) (query : str) (seps : list Z) : Found_ -> Prop :=
  | gs_error : GlobLex.Parse query = GlobLex.PErr -> GlobSearch w fs query seps GErr
  | gs_run m order o : GlobSpec.Globs query seps m -> in_order fs order -> glob_files m w order [] o -> GlobSearch w fs query seps o.
