(** * Model of the commands globtest and globdraw (glob/cmd/globtest/main.go, glob/cmd/globdraw/main.go).

    Parsing of the flags (package flag) is not modelled: a run is given the values of the flags, the empty string and false being the
    defaults.  The text of the compiler's error is not modelled, nor are the two benchmark lines that follow the answer with -v. *)
From Coq Require Import String.
From Coq Require Import ZArith Arith List Bool.
From Verif Require Import Utf8 GoStr GlobLex GlobMatch GlobCompile GlobSpec.
Import ListNotations.
Open Scope nat_scope.

(** strings.Split(s, sep) for a separator of one byte (library): always at least one piece. *)
Fixpoint Split (s : str) (sep : Z) : list str :=
  match s with
  | [] => [[]]
  | b :: t => if (b =? sep)%Z then [] :: Split t sep else match Split t sep with x :: xs => (b :: x) :: xs | [] => [[b]] end
  end.

(** The loop over the pieces (globtest/main.go:48-55, globdraw/main.go:27-34): None = the message about separators, and exit. *)
Fixpoint separators_loop (pieces : list str) (acc : list Z) : option (list Z) :=
  match pieces with
  | [] => Some acc
  | c :: rest => let '(r, w) := decode c in if w <? length c then None else separators_loop rest (acc ++ [r])
  end.

(** What a run prints first and how it ends: the usage, the two messages (all three with exit status 1), a crash of Match, or the answer. *)
Inductive Outcome := Usage | BadSeparator | BadPattern | Crashed | Printed (line : str).
(** fmt.Println(b), fmt.Printf("%t"). *)
Definition bool_text (b : bool) : str := if b then lit "true" else lit "false".

(** func main of globtest (globtest/main.go:35-66): -p pattern, -s sep, -f fixture, -v verbose. *)
Inductive globtest (pattern sep fixture : str) (verbose : bool) : Outcome -> Prop :=
  | gt_usage : pattern = [] -> globtest pattern sep fixture verbose Usage
  | gt_sep : pattern <> [] -> separators_loop (Split sep 44%Z) [] = None -> globtest pattern sep fixture verbose BadSeparator
  | gt_pattern separators : pattern <> [] -> separators_loop (Split sep 44%Z) [] = Some separators -> Parse pattern = PErr ->
      globtest pattern sep fixture verbose BadPattern
  | gt_crash separators m : pattern <> [] -> separators_loop (Split sep 44%Z) [] = Some separators -> Globs pattern separators m ->
      Match m fixture = None -> globtest pattern sep fixture verbose Crashed
  | gt_answer separators m b : pattern <> [] -> separators_loop (Split sep 44%Z) [] = Some separators -> Globs pattern separators m ->
      Match m fixture = Some b -> globtest pattern sep fixture verbose (Printed ((if verbose then lit "result: " else []) ++ bool_text b)).

(** The separators globdraw uses (globdraw/main.go:25-36): none for the empty -s. *)
Definition draw_separators (sep : str) : option (list Z) := if 0 <? length sep then separators_loop (Split sep 44%Z) [] else Some [].
(** func main of globdraw up to the drawing (globdraw/main.go:15-43): -p pattern, -s sep.  The matcher drawn, or the exit. *)
Inductive globdraw (pattern sep : str) : Outcome + Matcher -> Prop :=
  | gd_usage : pattern = [] -> globdraw pattern sep (inl Usage)
  | gd_sep : pattern <> [] -> draw_separators sep = None -> globdraw pattern sep (inl BadSeparator)
  | gd_pattern separators : pattern <> [] -> draw_separators sep = Some separators -> Parse pattern = PErr -> globdraw pattern sep (inl BadPattern)
  | gd_draw separators m : pattern <> [] -> draw_separators sep = Some separators -> Globs pattern separators m -> globdraw pattern sep (inr m).
