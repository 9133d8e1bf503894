(** * The file system and the parts of path/filepath, os and bufio the code uses.

    Simplifications: no symbolic or hard links, no permissions, no concurrent changes; the only error classes are "does not
    exist" and "not a directory".  Names and contents are byte lists. *)
From Coq Require Import String.
From Coq Require Import ZArith Arith List Bool Lia.
From Verif Require Import GoStr.
Import ListNotations.
Open Scope nat_scope.

(** ** Paths: elements separated by '/' *)
Definition slash : Z := 47%Z.
Fixpoint comps (s : str) : list str :=
  match s with
  | [] => [[]]
  | c :: t => if (c =? slash)%Z then [] :: comps t else match comps t with h :: r => (c :: h) :: r | [] => [[c]] end
  end.
Fixpoint joins (l : list str) : str := match l with [] => [] | [a] => a | a :: t => a ++ slash :: joins t end.
Definition rooted (s : str) : bool := match s with c :: _ => (c =? slash)%Z | [] => false end.
(** path/filepath.Clean on Unix.  The byte loop of the library is written over the '/'-separated elements: "" and "." are
    skipped, ".." removes the last element or, if there is none (or only ".."s), is kept in a relative path and dropped in an
    absolute one.  st: elements kept so far, last first. *)
Definition clean_step (rt : bool) (st : list str) (c : str) : list str :=
  if eqs c [] || eqs c (lit ".") then st
  else if eqs c (lit "..") then
    match st with
    | top :: rest => if eqs top (lit "..") then (if rt then st else c :: st) else rest
    | [] => if rt then [] else [c]
    end
  else c :: st.
Definition clean_stack (s : str) : list str := fold_left (clean_step (rooted s)) (comps s) [].
Definition unclean (rt : bool) (st : list str) : str :=
  match st with
  | [] => if rt then [slash] else lit "."
  | _ => (if rt then [slash] else []) ++ joins (rev st)
  end.
Definition Clean (s : str) : str := unclean (rooted s) (clean_stack s).
(** filepath.Join(a, b): empty elements are ignored; the rest is joined with '/' and cleaned. *)
Definition Join (a b : str) : str :=
  match a, b with
  | [], [] => []
  | [], _ => Clean b
  | _, [] => Clean a
  | _, _ => Clean (a ++ slash :: b)
  end.
Fixpoint dropw {A} (f : A -> bool) (l : list A) : list A := match l with [] => [] | a :: t => if f a then dropw f t else l end.
Fixpoint takew {A} (f : A -> bool) (l : list A) : list A := match l with [] => [] | a :: t => if f a then a :: takew f t else [] end.
Definition notslash (c : Z) : bool := negb (c =? slash)%Z.
(** filepath.Dir: Clean of everything up to and including the last '/'. *)
Definition DirOf (s : str) : str := Clean (rev (dropw notslash (rev s))).
(** os.basename (FileInfo.Name() of the root): trailing slashes removed, then what follows the last slash. *)
Definition Base (s : str) : str :=
  match dropw (fun c => negb (notslash c)) (rev s) with [] => s | r => rev (takew notslash r) end.

(** ** Trees *)
Inductive Node := File (content : str) | Dir (entries : list (str * Node)).   (* entries in lexical order of their names *)
Fixpoint child (es : list (str * Node)) (name : str) : option Node :=
  match es with [] => None | (n, x) :: t => if str_dec name n then Some x else child t name end.
Record World := { tree : list (str * Node); cwd : list str }.    (* entries of "/", and the working directory *)
Inductive Res := Found (n : Node) | NotExist | NotDir.
(** Path resolution: anc = the directories above the current one. *)
Fixpoint resolve (anc : list Node) (cur : Node) (cs : list str) : Res :=
  match cs with
  | [] => Found cur
  | c :: r =>
      match cur with
      | File _ => NotDir
      | Dir es =>
          if eqs c [] || eqs c (lit ".") then resolve anc cur r
          else if eqs c (lit "..") then match anc with p :: anc' => resolve anc' p r | [] => resolve [] cur r end
          else match child es c with None => NotExist | Some n => resolve (cur :: anc) n r end
      end
  end.
Definition lookup (w : World) (p : str) : Res :=
  match p with
  | [] => NotExist
  | _ => resolve [] (Dir (tree w)) ((if rooted p then [] else cwd w) ++ comps p)
  end.

(** os.Open and reading to the end: a directory opens but yields no data; None = error. *)
Definition open_read (w : World) (p : str) : option str :=
  match lookup w p with Found (File c) => Some c | Found (Dir _) => Some [] | _ => None end.

(** os.Create: parent must be a directory, the target must not be one; an existing file is truncated.  Here: the tree after
    the content has been written, in one step. *)
Fixpoint str_lt (a b : str) : bool :=
  match a, b with
  | _, [] => false
  | [], _ :: _ => true
  | x :: a', y :: b' => (x <? y)%Z || ((x =? y)%Z && str_lt a' b')
  end.
Fixpoint put_entry (es : list (str * Node)) (name : str) (x : Node) : list (str * Node) :=
  match es with
  | [] => [(name, x)]
  | (n, y) :: t => if str_dec name n then (name, x) :: t else if str_lt name n then (name, x) :: (n, y) :: t else (n, y) :: put_entry t name x
  end.
(** Write a file at a list of names below a directory; None = os.Create fails. *)
Fixpoint create_at (es : list (str * Node)) (names : list str) (content : str) : option (list (str * Node)) :=
  match names with
  | [] => None                                          (* is a directory *)
  | [n] => match child es n with Some (Dir _) => None | _ => Some (put_entry es n (File content)) end
  | n :: rest =>
      match child es n with
      | Some (Dir sub) => match create_at sub rest content with Some sub' => Some (put_entry es n (Dir sub')) | None => None end
      | _ => None
      end
  end.
(** The names a clean path denotes from "/": its elements after the working directory's, with leading ".." going up. *)
Fixpoint abs_names (st : list str) (cs : list str) : list str :=     (* st reversed *)
  match cs with
  | [] => rev st
  | c :: r => if eqs c [] || eqs c (lit ".") then abs_names st r else if eqs c (lit "..") then abs_names (tl st) r else abs_names (c :: st) r
  end.
Definition names_of (w : World) (p : str) : list str := abs_names [] ((if rooted p then [] else cwd w) ++ comps p).
Definition create (w : World) (p : str) (content : str) : option World :=
  match p with
  | [] => None
  | _ => match create_at (tree w) (names_of w p) content with Some t => Some {| tree := t; cwd := cwd w |} | None => None end
  end.

(** ** os.Expand *)
Definition alnum (c : Z) : bool := ((c =? 95) || ((48 <=? c) && (c <=? 57)) || ((97 <=? c) && (c <=? 122)) || ((65 <=? c) && (c <=? 90)))%Z.
Definition special (c : Z) : bool := (existsb (Z.eqb c) (lit "*#$@!?-") || ((48 <=? c) && (c <=? 57)))%Z.
(** os.getShellName: the name and the number of bytes it takes. *)
Definition getShellName (s : str) : str * nat :=
  match s with
  | [] => ([], 0)
  | c :: t =>
      if (c =? 123)%Z then       (* { *)
        match t with
        | d :: e :: _ => if special d && (e =? 125)%Z then ([d], 3)
            else let name := takew (fun x => negb (x =? 125)%Z) t in
                 if length name =? length t then ([], 1)                  (* no closing brace: eat "${" *)
                 else if length name =? 0 then ([], 2) else (name, length name + 2)
        | _ => let name := takew (fun x => negb (x =? 125)%Z) t in
               if length name =? length t then ([], 1) else if length name =? 0 then ([], 2) else (name, length name + 2)
        end
      else if special c then ([c], 1)
      else let name := takew alnum s in (name, length name)
  end.
Fixpoint expand (fuel : nat) (env : str -> str) (s : str) : str :=
  match fuel, s with
  | S f, c :: ((_ :: _) as t) =>
      if (c =? 36)%Z then
        let '(name, w) := getShellName t in
        (match name with [] => if w =? 0 then [c] else [] | _ => env name end) ++ expand f env (skipn w t)
      else c :: expand f env t
  | _, _ => s
  end.
(** os.ExpandEnv *)
Definition ExpandEnv (env : str -> str) (s : str) : str := expand (length s) env s.
