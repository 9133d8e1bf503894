(** * Specification vocabulary for the repository (C31-C34), independent of the model of the code. *)
From Coq Require Import String.
From Coq Require Import ZArith Arith List Bool Sorting.
From Verif Require Import GoStr FsModel.
Import ListNotations.
Open Scope nat_scope.

(** ** Lines of a file *)
(** The lines of a file content, without their newlines. *)
Inductive file_lines : str -> list str -> Prop :=
  | fl_none : file_lines [] []
  | fl_last l : l <> [] -> ~ In 10%Z l -> file_lines l [l]
  | fl_line l rest ls : ~ In 10%Z l -> file_lines rest ls -> file_lines (l ++ 10%Z :: rest) (l :: ls).
(** A carriage return before the newline is not part of the text. *)
Definition text_of (l t : str) : Prop := l = t ++ [13%Z] \/ (l = t /\ forall a, l <> a ++ [13%Z]).
(** The lines before the first one of 64 KiB or more. *)
Inductive readable : list str -> list str -> Prop :=
  | rd_nil : readable [] []
  | rd_long l ls : 256 * 256 <= length l -> readable (l :: ls) []
  | rd_line l ls vs : length l < 256 * 256 -> readable ls vs -> readable (l :: ls) (l :: vs).
(** The texts shown for a file. *)
Definition shown (content : str) (texts : list str) : Prop :=
  exists ls vs, file_lines content ls /\ readable ls vs /\ Forall2 text_of vs texts.
(** A file is refused as binary if its first line has a NUL. *)
Definition binary (texts : list str) : Prop := match texts with t :: _ => In 0%Z t | [] => False end.
(** The lines with their numbers. *)
Fixpoint numbered (n : nat) (texts : list str) : list (nat * str) := match texts with [] => [] | t :: r => (n, t) :: numbered (S n) r end.
(** The matching lines of a file: none if it is binary. *)
Definition matching (p : str -> bool) (texts : list str) (ms : list (nat * str)) : Prop :=
  (binary texts /\ ms = []) \/ (~ binary texts /\ ms = filter (fun e => p (snd e)) (numbered 1 texts)).

(** ** The store *)
(** A name of a directory entry. *)
Definition normal (n : str) : Prop := n <> [] /\ n <> lit "." /\ n <> lit ".." /\ ~ In 47%Z n.
(** Directories hold distinct, normal names in lexical order. *)
Inductive wf : Node -> Prop :=
  | wf_file c : wf (File c)
  | wf_dir es : wfs es -> wf (Dir es)
with wfs : list (str * Node) -> Prop :=
  | wfs_nil : wfs []
  | wfs_cons n x es : normal n -> wf x -> wfs es -> Forall (fun e => str_lt n (fst e) = true) es -> wfs ((n, x) :: es).
(** An entry of the store rooted at the directory [es]: a file directly in one of the six category directories, except .DS_Store. *)
Definition entry (es : list (str * Node)) (cat name : str) : Prop :=
  In cat (map lit ["people"; "email"; "phone"; "sites"; "devices"; "bank"]%string) /\
  name <> lit ".DS_Store" /\
  exists sub content, In (cat, Dir sub) es /\ In (name, File content) sub.
(** Its path relative to the root. *)
Definition rel (cat name : str) : str := cat ++ lit "/" ++ name.
(** Following normal names down a tree. *)
Fixpoint below (nd : Node) (ns : list str) : Res :=
  match ns with
  | [] => Found nd
  | n :: r => match nd with File _ => NotDir | Dir es => match child es n with None => NotExist | Some x => below x r end end
  end.
